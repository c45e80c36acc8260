(** C79: when the unwrapped interferograms belong to one time series. *)
From Verif Require Import Base BaseLemmas GraphModel GraphSpec GraphProofs Hop3Proofs Reg2DProofs McfModel McfSpec DualProofs
  ResidueProofs FlowProofs UnwrapProofs OracleProofs EmcfModel EmcfSpec PoolProofs EmcfProofs CubeProofs OptimalSpec
  TimeSeriesSpec TimeSeriesProofs Props_Graph Props_Mcf Props_Emcf.
From Coq Require Import ZifyBool.
Set Default Goal Selector "!".
Opaque brute.

(** Around a cycle of interferograms, every point is off by whole cycles. *)
Theorem C79_whole : forall smcf gs gt tsched ssched cpu e c is_ifg U, smcf_sound smcf -> planar gs -> planar gt ->
  make_solver gs = Ok (em_space e) -> make_solver gt = Ok (em_time e) ->
  (forall b l, Permutation (tsched b l) l) -> (forall l, Permutation (ssched l) l) ->
  0 < links_per_batch (em_set e) -> classify e c = Ok is_ifg ->
  consistent is_ifg (g_links gt) (cu_data c) (g_npoints gs) ->
  unwrap_cube smcf tsched ssched cpu e c = Ok U ->
  forall v cy, v < g_npoints gs -> In cy (g_cycles gt) ->
    cong2pi (around (g_links gt) (fun n => nth v (nth n U []) 0%Q) cy) 0.
Proof.
  intros smcf gs gt tsched ssched cpu e c is_ifg U Hsm Hps Hpt Hes Het Ht Hs Hl Hc [s Hcons] H v cy Hv Hcy.
  destruct (C22_sound smcf gs gt tsched ssched cpu e c is_ifg U Hsm Hps Hpt Hes Het Ht Hs Hl Hc H) as [_ HU].
  assert (0 < g_npoints gs) as H0 by lia.
  set (x := fun t => (s t v - s t 0%nat)%Q).
  assert (exists m : nat -> Z, forall n, n < length (g_links gt) ->
    (nth v (nth n U []) 0 == slope (g_links gt) x n + twopi * inject_Z (m n))%Q) as [m Hm].
  { apply (finite_choice 0%Z (length (g_links gt)) (fun n z => (nth v (nth n U []) 0 == slope (g_links gt) x n + twopi * inject_Z z)%Q)).
    intros n Hn. apply cong_some. destruct (HU n Hn) as (_ & _ & K). eapply cong2pi_trans; [apply K, Hv|].
    unfold slope, x. eapply cong2pi_trans; [apply cong2pi_sub; apply Hcons; auto|]. apply cong2pi_eq. ring. }
  rewrite (around_ext gt Hpt _ (fun n => slope (g_links gt) x n + twopi * inject_Z (m n))%Q cy Hcy Hm).
  rewrite (around_add gt Hpt (slope (g_links gt) x) _ cy Hcy), (around_scale gt Hpt twopi _ cy Hcy), (around_inject gt Hpt m cy Hcy).
  rewrite (around_potential gt Hpt (slope (g_links gt) x) x cy Hcy) by reflexivity.
  exists (aroundZ (g_links gt) m cy). ring.
Qed.

(** The two steps: [T] are the gradients unwrapped in time, which close around every
    cycle of interferograms; [K] are the cycles that the spatial step adds, none to
    an interferogram without residues. The unwrapped interferograms are the
    differences of one phase per date exactly when [K] closes as well. *)
Theorem C79_series : forall smcf gs gt tsched ssched cpu e c is_ifg U, smcf_sound smcf -> planar gs -> planar gt ->
  make_solver gs = Ok (em_space e) -> make_solver gt = Ok (em_time e) ->
  (forall b l, Permutation (tsched b l) l) -> (forall l, Permutation (ssched l) l) ->
  0 < links_per_batch (em_set e) -> classify e c = Ok is_ifg ->
  consistent is_ifg (g_links gt) (cu_data c) (g_npoints gs) ->
  unwrap_cube smcf tsched ssched cpu e c = Ok U ->
  let u n v := nth v (nth n U []) 0%Q in
  let ph := ifg_phase is_ifg (g_links gt) (cu_data c) in
  exists (T : nat -> nat -> Q) (K : nat -> nat -> Z),
    (forall n i, n < length (g_links gt) -> i < length (g_links gs) ->
       cong2pi (T n i) (slope (g_links gs) (ph n) i) /\
       (slope (g_links gs) (u n) i == T n i + twopi * inject_Z (K n i))%Q) /\
    (forall i cy, i < length (g_links gs) -> In cy (g_cycles gt) ->
       (around (g_links gt) (fun n => T n i) cy == 0)%Q) /\
    (forall n, n < length (g_links gt) ->
       (forall cy, In cy (g_cycles gs) -> (around (g_links gs) (T n) cy == 0)%Q) ->
       forall i, i < length (g_links gs) -> K n i = 0%Z) /\
    (one_series (g_links gt) (g_npoints gs) u <->
     forall i cy, i < length (g_links gs) -> In cy (g_cycles gt) ->
       aroundZ (g_links gt) (fun n => K n i) cy = 0%Z).
Proof.
  intros smcf gs gt tsched ssched cpu e c is_ifg U Hsm Hps Hpt Hes Het Ht Hs Hl Hc Hcons H u ph.
  pose proof (solver_of gs (em_space e) Hps Hes) as Es. pose proof (solver_of gt (em_time e) Hpt Het) as Et.
  destruct (cube_steps smcf gs gt Hps Hpt e Es Et tsched ssched cpu Ht Hs Hl is_ifg (cu_data c) c U Hsm eq_refl Hc H)
    as (G & sc & EG & _ & HG & HS).
  destruct (C21_time smcf gs gt tsched cpu e is_ifg (cu_data c) G Hsm Hps Hpt Hes Het Ht Hl EG) as [HLG HT].
  pose proof (fun n Hn => space_steps smcf gs gt Hps Hpt e Hl is_ifg (cu_data c) G sc n _ Hsm HG Hn (HS n Hn)) as ST.
  destruct (finite_choice [] (length (g_links gt)) (fun n k => exists r,
      compute_residues_from_gradients (dual_solver gs) (grow G n) = Ok r /\
      residues_to_flows smcf (dual_solver gs) r sc None = Ok k /\ length k = length (g_links gs) /\ (u n 0%nat == 0)%Q /\
      forall i, i < length (g_links gs) ->
        (slope (g_links gs) (u n) i == nth n (nth i G []) 0 + twopi * inject_Z (nth i k 0%Z))%Q)) as [k Hk].
  { intros n Hn. destruct (ST n Hn) as (r & k & A & _ & B & C & D & F). exists k, r. auto. }
  exists (fun n i => nth n (nth i G []) 0%Q), (fun n i => nth i (k n) 0%Z).
  assert (forall i cy, i < length (g_links gs) -> In cy (g_cycles gt) ->
    (around (g_links gt) (fun n => nth n (nth i G []) 0) cy == 0)%Q) as TC.
  { intros i cy Hi Hcy. destruct (nth i (g_links gs) (0, 0)) as [a b] eqn:E. destruct (HT i a b Hi E) as (HL & _ & _ & Z).
    specialize (Z Hcons cy Hcy). unfold around. rewrite (list_numbers gt 0%Q _ HL). exact Z. }
  split; [|split; [exact TC|split]].
  - intros n i Hn Hi. destruct (Hk n Hn) as (r & _ & _ & _ & _ & F). split; [|now apply F].
    destruct (nth i (g_links gs) (0, 0)) as [a b] eqn:E. destruct (HT i a b Hi E) as (_ & Z & _).
    unfold slope, ph. rewrite E. now apply Z.
  - intros n Hn Hz i Hi. destruct (Hk n Hn) as (r & Er & Ek & _ & _ & _).
    assert (length (grow G n) = length (g_links gs)) as HLg by (unfold grow; now rewrite map_length).
    destruct (around_span gs Hps (fun i => nth n (nth i G []) 0%Q)) as [x Hx]; [exact Hz|].
    destruct (zero_residues_grad e Hl gs (grow G n) x Hps HLg) as (r' & Er' & Hr').
    { intros a b Hab. apply (In_nth _ _ (0, 0)) in Hab as (j & Hj & E).
      rewrite (link_val_nth 0%Q (g_links gs) _ j a b); auto; [|apply (pl_nodup gs Hps)].
      rewrite grow_nth by lia. rewrite (Hx j Hj). unfold slope. rewrite E. reflexivity. }
    rewrite Er in Er'. injection Er' as <-. unfold residues_to_flows in Ek. rewrite (proj2 (forallb_zero _) Hr') in Ek.
    injection Ek as <-. apply nth_repeat.
  - assert (forall i cy, i < length (g_links gs) -> In cy (g_cycles gt) ->
      (around (g_links gt) (fun n => slope (g_links gs) (u n) i) cy ==
       twopi * inject_Z (aroundZ (g_links gt) (fun n => nth i (k n) 0%Z) cy))%Q) as D.
    { intros i cy Hi Hcy.
      rewrite (around_ext gt Hpt _ (fun n => nth n (nth i G []) 0 + twopi * inject_Z (nth i (k n) 0%Z))%Q cy Hcy).
      2:{ intros n Hn. destruct (Hk n Hn) as (r & _ & _ & _ & _ & F). now apply F. }
      rewrite (around_add gt Hpt _ _ cy Hcy), (around_scale gt Hpt twopi _ cy Hcy), (around_inject gt Hpt _ cy Hcy).
      rewrite (TC i cy Hi Hcy). ring. }
    split.
    + intros [s Hser] i cy Hi Hcy. specialize (D i cy Hi Hcy).
      pose proof (nth_In _ (0, 0) Hi) as HI. destruct (nth i (g_links gs) (0, 0)) as [a b] eqn:E.
      pose proof (pl_lt gs Hps a b HI) as Lab.
      rewrite (around_potential gt Hpt _ (fun t => s t b - s t a)%Q cy Hcy) in D.
      2:{ intros n Hn. unfold slope at 1. rewrite E. cbn [fst snd]. fold (u n b) (u n a). rewrite !Hser by (auto; lia).
          unfold slope. ring. }
      set (z := aroundZ _ _ _) in *.
      assert (inject_Z z == 0)%Q as Z0.
      { destruct (Qeq_dec (inject_Z z) 0) as [Q0|Q0]; [exact Q0|]. exfalso. apply Q0.
        apply (Qmult_inj_l _ _ twopi); [intros X; pose proof twopi_pos as P; rewrite X in P; discriminate P|]. rewrite <- D. ring. }
      unfold Qeq in Z0. cbn in Z0. lia.
    + intros HK. unfold one_series.
      assert (forall v, v < g_npoints gs -> exists x, forall n, n < length (g_links gt) -> (u n v == slope (g_links gt) x n)%Q) as X.
      { intros v Hv. apply (around_span gt Hpt (fun n => u n v)). intros cy Hcy.
        rewrite (constant_along gs (fun v => around (g_links gt) (fun n => u n v) cy) Hps).
        - apply (around_potential gt Hpt _ (fun _ => 0%Q) cy Hcy). intros n Hn.
          destruct (Hk n Hn) as (r & _ & _ & _ & Z & _). rewrite Z. unfold slope. ring.
        - intros a b Hab. apply (In_nth _ _ (0, 0)) in Hab as (i & Hi & E).
          specialize (D i cy Hi Hcy). rewrite (HK i cy Hi Hcy) in D.
          assert ((around (g_links gt) (fun n => u n b) cy ==
            around (g_links gt) (fun n => u n a) cy + around (g_links gt) (fun n => slope (g_links gs) (u n) i) cy)%Q) as A.
          { rewrite <- (around_add gt Hpt _ _ cy Hcy). apply (around_ext gt Hpt); auto.
            intros n Hn. unfold slope. rewrite E. cbn [fst snd]. ring. }
          rewrite A, D. change (inject_Z 0) with 0%Q. ring.
        - exact Hv. }
      destruct (finite_choice (fun _ => 0%Q) (g_npoints gs) (fun v x => forall n, n < length (g_links gt) ->
        (u n v == slope (g_links gt) x n)%Q) X) as [s Hser].
      exists (fun t v => s v t). intros n v Hn Hv. apply (Hser v Hv n Hn).
Qed.


(** A 2 by 3 grid and four dates. The second date has a vortex in the left cell, the
    third and fourth the opposite one in the right cell as well. *)
Definition g23 : graph := reg2d_graph 2 3.
Lemma g23_planar : planar g23.
Proof. apply (reg2d_planar 2 3); lia. Qed.
Definition em79 : emcf := Emcf (dual_solver g23) (dual_solver gt4) (Settings Constant Constant 3 1 1) [] [] [] [].
Definition phi79 : list (list Q) := map (map (fun z => twopi * (z # 24)))%Q
  [[0; 0; 0; 0; 0; 0]; [0; -7; 16; 7; 14; 15]; [0; -6; 0; 6; 12; 6]; [0; -6; 0; 6; 12; 6]]%Z.
Definition cube79 : cube := Cube 2 0 phi79.
Transparent twopi.
Definition or_nil {A} (r : res (list A)) : list A := match r with Ok l => l | Err _ => [] end.
Definition grad79 : list (list Q) :=
  or_nil (unwrap_gradients_in_time (fun _ _ => None) (fun _ l => l) 8 em79 false phi79).
Lemma grad79_ok smcf : unwrap_gradients_in_time smcf (fun _ l => l) 8 em79 false phi79 = Ok grad79.
Proof. vm_cast_no_check (@eq_refl (res (list (list Q))) (Ok grad79)). Qed.
Lemma res79 : compute_residues_from_gradients (dual_solver g23) (grow grad79 0) = Ok [-1; 1; 0]%Z /\
  compute_residues_from_gradients (dual_solver g23) (grow grad79 1) = Ok [0; 1; -1]%Z /\
  compute_residues_from_gradients (dual_solver g23) (grow grad79 3) = Ok [1; 0; -1]%Z.
Proof. vm_compute. auto. Qed.
Lemma close79 : (nth 0 (nth 5 grad79 []) 0 + nth 3 (nth 5 grad79 []) 0 == nth 1 (nth 5 grad79 []) 0)%Q.
Proof. vm_compute. reflexivity. Qed.
Opaque twopi grad79.
(** The cheapest flows on the link shared by the two cells. *)
Lemma flow79 smcf r k k' : smcf_sound smcf -> length r = 3 -> cancels g23 r k' -> fits_int32 k' ->
  residues_to_flows smcf (dual_solver g23) r (repeat 1%Z 7) None = Ok k ->
  cancels g23 r k /\ (price (repeat 1 7) (repeat 1 7) k <= price (repeat 1 7) (repeat 1 7) k')%Z.
Proof.
  intros Hs Hr Hc Hf H. split; [exact (flows_cancel smcf g23 r _ None k Hs g23_planar Hr H)|].
  refine (proj2 (flows_optimal smcf g23 r _ None k Hs g23_planar Hr _ _ H) k' Hc Hf).
  - intros c Hin. apply repeat_spec in Hin. subst. lia.
  - intros c Hin. apply repeat_spec in Hin. subst. lia.
Qed.
Lemma seven {A} (k : list A) : length k = 7 -> exists a b c d e f g, k = [a; b; c; d; e; f; g].
Proof. do 8 (destruct k as [|? k]; try discriminate). intros _. repeat eexists. Qed.
Lemma size79 x : (- (1 * Z.max x 0 + 1 * Z.max (- x) 0) <= x <= 1 * Z.max x 0 + 1 * Z.max (- x) 0)%Z.
Proof. lia. Qed.
Lemma shared79 smcf r k p : smcf_sound smcf -> residues_to_flows smcf (dual_solver g23) r (repeat 1%Z 7) None = Ok k ->
  In (r, p) [([-1; 1; 0], 0); ([0; 1; -1], 1); ([1; 0; -1], 0)]%Z -> nth 5 k 0%Z = p.
Proof.
  intros Hs H Hin.
  assert (forall k', length r = 3 -> cancels g23 r k' -> fits_int32 k' -> price (repeat 1 7)%Z (repeat 1 7)%Z k' = 1%Z ->
    cancels g23 r k /\ (price (repeat 1 7) (repeat 1 7) k <= 1)%Z) as F.
  { intros k' Hr Hc Hf E. destruct (flow79 smcf r k k' Hs Hr Hc Hf H) as [A B]. split; [exact A|]. now rewrite E in B. }
  assert (forall r' k' : list Z, r' = r -> length r = 3 -> length k' = 7 ->
     circZ (link_val 0%Z (g_links g23) k') [0; 3; 4; 1] = (- nth 1 r' 0)%Z ->
     circZ (link_val 0%Z (g_links g23) k') [1; 4; 5; 2] = (- nth 2 r' 0)%Z -> cancels g23 r k') as C.
  { intros r' k' -> _ HL A B. split; [exact HL|]. intros c Hc. change (length (g_cycles g23)) with 2 in Hc.
    destruct c as [|[|c]]; [exact A|exact B|lia]. }
  assert (cancels g23 r k /\ (price (repeat 1 7) (repeat 1 7) k <= 1)%Z) as [[HL HC] HP].
  { destruct Hin as [E|[E|[E|[]]]]; injection E as <- <-.
    - apply (F [1; 0; 0; 0; 0; 0; 0]%Z); try reflexivity; [now apply (C [-1; 1; 0]%Z)|].
      intros x Hx. cbn in Hx. unfold int32_max. lia.
    - apply (F [0; 0; 0; 0; 0; 1; 0]%Z); try reflexivity; [now apply (C [0; 1; -1]%Z)|].
      intros x Hx. cbn in Hx. unfold int32_max. lia.
    - apply (F [0; -1; 0; 0; 0; 0; 0]%Z); try reflexivity; [now apply (C [1; 0; -1]%Z)|].
      intros x Hx. cbn in Hx. unfold int32_max. lia. }
  destruct (seven k HL) as (a & b & c & d & e & f & g & ->).
  pose proof (HC 0 ltac:(cbn; lia)) as A. pose proof (HC 1 ltac:(cbn; lia)) as B. clear HC HL C F H.
  cbn -[Z.mul Z.max Z.add Z.opp] in A, B, HP |- *.
  pose proof (size79 a) as Sa. pose proof (size79 b) as Sb. pose proof (size79 c) as Sc. pose proof (size79 d) as Sd.
  pose proof (size79 e) as Se. pose proof (size79 f) as Sf. pose proof (size79 g) as Sg.
  set (ta := (1 * Z.max a 0 + _)%Z) in *. set (tb := (1 * Z.max b 0 + _)%Z) in *. set (tc := (1 * Z.max c 0 + _)%Z) in *.
  set (td := (1 * Z.max d 0 + _)%Z) in *. set (te := (1 * Z.max e 0 + _)%Z) in *. set (tf := (1 * Z.max f 0 + _)%Z) in *.
  set (tg := (1 * Z.max g 0 + _)%Z) in *. clearbody ta tb tc td te tf tg.
  destruct Hin as [E|[E|[E|[]]]]; injection E as <- <-; cbn -[Z.mul Z.max Z.add Z.opp] in A, B; lia.
Qed.

Lemma em79_solvers : make_solver g23 = Ok (em_space em79) /\ make_solver gt4 = Ok (em_time em79) /\ planar gt4.
Proof.
  destruct gt4_real as (s & _ & H & _). split; [apply planar_solver, g23_planar|]. split; [now apply planar_solver|exact H].
Qed.
Lemma cube79_returns : exists U, unwrap_cube brute (fun _ l => l) (fun l => l) 8 em79 cube79 = Ok U.
Proof.
  destruct em79_solvers as (A & B & C).
  apply (C22_returns_default brute g23 gt4 (fun _ l => l) (fun l => l) 8%Z em79 cube79 brute_sound brute_complete g23_planar C A B);
    try reflexivity; try (cbn; lia).
  - intros row Hr. cbn in Hr. destruct Hr as [<-|[<-|[<-|[<-|[]]]]]; cbn; lia.
Qed.

(** No solver makes the result one series in general: here the cheapest corrections of
    three interferograms that share their dates do not add up, whatever optimal
    solver is used. *)
Theorem C79_series_refuted : exists gs gt e c, planar gs /\ planar gt /\
  make_solver gs = Ok (em_space e) /\ make_solver gt = Ok (em_time e) /\ classify e c = Ok false /\
  consistent false (g_links gt) (cu_data c) (g_npoints gs) /\
  (exists U, unwrap_cube brute (fun _ l => l) (fun l => l) 8 e c = Ok U) /\
  forall smcf U, smcf_sound smcf -> unwrap_cube smcf (fun _ l => l) (fun l => l) 8 e c = Ok U ->
    ~ one_series (g_links gt) (g_npoints gs) (fun n v => nth v (nth n U []) 0%Q).
Proof.
  exists g23, gt4, em79, cube79. destruct em79_solvers as (A & B & C).
  split; [exact g23_planar|]. split; [exact C|]. split; [exact A|]. split; [exact B|]. split; [reflexivity|].
  split; [apply C21_slc_consistent|]. split; [exact cube79_returns|].
  intros smcf U Hs H [s Hser].
  pose proof (solver_of g23 (em_space em79) g23_planar A) as Es. pose proof (solver_of gt4 (em_time em79) C B) as Et.
  assert (0 < links_per_batch (em_set em79)) as Hl by (cbn; lia).
  destruct (cube_steps smcf g23 gt4 g23_planar C em79 Es Et (fun _ l => l) (fun l => l) 8%Z (fun _ l => Permutation_refl l)
    (fun l => Permutation_refl l) Hl false phi79 cube79 U Hs eq_refl eq_refl H) as (G & sc & EG & Esc & HG & HS).
  rewrite grad79_ok in EG. assert (forall A (a b : A), Ok a = Ok b -> a = b) as J by congruence. apply J in EG. subst G.
  change (Ok (repeat 1%Z 7) = Ok sc) in Esc. apply J in Esc. subst sc.
  assert (forall n r p, n < 6 -> compute_residues_from_gradients (dual_solver g23) (grow grad79 n) = Ok r ->
    In (r, p) [([-1; 1; 0], 0); ([0; 1; -1], 1); ([1; 0; -1], 0)]%Z ->
    (slope (g_links g23) (fun v => nth v (nth n U []) 0) 5 == nth n (nth 5 grad79 []) 0 + twopi * inject_Z p)%Q) as F.
  { intros n r p Hn Er Hin.
    destruct (space_steps smcf g23 gt4 g23_planar C em79 Hl false phi79 grad79 _ n _ Hs HG Hn (HS n Hn)) as (r' & k & Er' & _ & Ek & _ & _ & F).
    rewrite Er in Er'. apply J in Er'. subst r'. rewrite <- (shared79 smcf r k p Hs Ek Hin). apply F. cbn. lia. }
  destruct res79 as (R0 & R1 & R3). pose proof close79 as Z.
  pose proof (F 0 [-1; 1; 0]%Z 0%Z ltac:(lia) R0 (or_introl eq_refl)) as F0. pose proof (F 1 [0; 1; -1]%Z 1%Z ltac:(lia) R1 (or_intror (or_introl eq_refl))) as F1.
  pose proof (F 3 [1; 0; -1]%Z 0%Z ltac:(lia) R3 (or_intror (or_intror (or_introl eq_refl)))) as F3. clear F.
  set (x := nth 5 grad79 []) in *. clearbody x. unfold slope in F0, F1, F3. cbn [g_links g23 reg2d_graph] in F0, F1, F3.
  change (nth 5 _ (0, 0)) with (1, 4) in F0, F1, F3. cbn [fst snd] in F0, F1, F3.
  assert (forall n v a b, n < 6 -> v < 6 -> nth n (g_links gt4) (0, 0) = (a, b) -> (nth v (nth n U []) 0 == s b v - s a v)%Q) as S.
  { intros n v a b Hn Hv E. rewrite (Hser n v Hn Hv), E. reflexivity. }
  rewrite (S 0 4 0 1), (S 0 1 0 1) in F0 by (reflexivity || lia). rewrite (S 1 4 0 2), (S 1 1 0 2) in F1 by (reflexivity || lia).
  rewrite (S 3 4 1 2), (S 3 1 1 2) in F3 by (reflexivity || lia).
  pose proof twopi_pos as P. change (inject_Z 1) with 1%Q in F1. change (inject_Z 0) with 0%Q in F0, F3.
  generalize dependent twopi. intros. lra.
Qed.

(** The data above meet the hypotheses of [C79_series] and of [C79_whole]. *)
Example C79_witness : exists U, unwrap_cube brute (fun _ l => l) (fun l => l) 8 em79 cube79 = Ok U /\
  (forall v cy, v < 6 -> In cy (g_cycles gt4) -> cong2pi (around (g_links gt4) (fun n => nth v (nth n U []) 0%Q) cy) 0).
Proof.
  destruct cube79_returns as [U HU]. exists U. split; [exact HU|]. destruct em79_solvers as (A & B & C).
  apply (C79_whole brute g23 gt4 (fun _ l => l) (fun l => l) 8%Z em79 cube79 false U brute_sound g23_planar C A B
    (fun _ l => Permutation_refl l) (fun l => Permutation_refl l)); auto; [cbn; lia|apply C21_slc_consistent].
Qed.
Print Assumptions C79_whole.
Print Assumptions C79_series.
Print Assumptions C79_series_refuted.
