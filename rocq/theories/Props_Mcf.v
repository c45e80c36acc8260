(** Properties C07-C16: wrapped differences, dual graph, residues, flows,
    integration and two-dimensional unwrapping.
    External solver: [smcf_sound] / [smcf_complete] (McfSpec.v); met by [brute]. *)
From Verif Require Import Base BaseLemmas GraphModel GraphSpec GraphProofs Hop3Proofs Reg2DProofs
  McfModel McfSpec PhaseProofs DualProofs ResidueProofs FlowProofs FloodProofs UnwrapProofs OracleProofs.
Set Default Goal Selector "!".
Opaque brute.

Lemma solver_of g s : planar g -> make_solver g = Ok s -> s = dual_solver g.
Proof. intros Hp H. rewrite planar_solver in H by auto. congruence. Qed.

(** The solver contract is satisfiable. *)
Example solver_contract_satisfiable : smcf_sound brute /\ smcf_complete brute.
Proof. exact (conj brute_sound brute_complete). Qed.

(** The graphs of the code meet the hypothesis [planar]; the solver object is
    built for all of them. *)
Theorem planar_solver_exists : forall g, planar g -> exists s, make_solver g = Ok s.
Proof. intros g Hp. eexists. now apply planar_solver. Qed.

(** ** C07 *)
Theorem C07_phase_diff : forall p0 p1 model : Q,
  (* congruent to the difference, within half a cycle of the model *)
  cong2pi (phase_diff p0 p1 model) (p1 - p0) /\
  (- half <= phase_diff p0 p1 model - model <= half)%Q /\
  (* the only such value strictly inside the half-cycle interval *)
  (forall x, cong2pi x (p1 - p0) -> (- half < x - model < half)%Q -> (phase_diff p0 p1 model == x)%Q) /\
  (* whole cycles added to the inputs do not matter away from a tie *)
  (~ tie p0 p1 model -> forall k0 k1 : Z,
     (phase_diff (p0 + twopi * inject_Z k0) (p1 + twopi * inject_Z k1) model == phase_diff p0 p1 model)%Q) /\
  (* swapping negates *)
  (phase_diff p1 p0 0 == - phase_diff p0 p1 0)%Q.
Proof.
  intros p0 p1 m. split; [apply pd_cong|]. split; [apply pd_near|]. split; [intros; now apply pd_unique|].
  split; [intros; now apply pd_shift|]. apply pd_swap.
Qed.
Example C07_witness : (phase_diff 0 4 0 == 4 - twopi)%Q /\ ~ (phase_diff 0 4 0 == 4)%Q /\ ~ tie 0 4 0
  /\ (phase_diff 0 4 8 == 4 + twopi)%Q.
Proof.
  split; [vm_compute; reflexivity|]. split; [vm_compute; discriminate|]. split; [|vm_compute; reflexivity].
  intros [j Hj]. revert Hj. Transparent twopi. unfold Qeq, twopi. cbn -[Z.mul Z.add]. lia.
Qed.

(** At a tie the representative may change: the exclusion is needed. *)
Theorem C07_tie_refuted : exists p0 p1 : Q,
  ~ (phase_diff p0 (p1 + twopi * inject_Z 1) 0 == phase_diff p0 p1 0)%Q.
Proof. exists 0%Q, (twopi * (1 # 2))%Q. vm_compute. discriminate. Qed.

(** ** C08 *)
Theorem C08_dual : forall g, simple_links g ->
  ((exists a b, In (a, b) (all_sides g) /\ ~ listed (g_links g) a b) -> make_solver g = Err KeyError) /\
  ((forall a b, In (a, b) (all_sides g) -> listed (g_links g) a b) ->
     ((exists a b, In (a, b) (g_links g) /\ ~ 1 <= length (uses g a b) <= 2) -> make_solver g = Err ValueError) /\
     ((forall a b, In (a, b) (g_links g) -> 1 <= length (uses g a b) <= 2) ->
        exists s, make_solver g = Ok s /\ s_graph s = g /\
          length (s_dual s) = length (g_links g) /\ length (s_dir s) = length (g_links g) /\
          forall i a b, i < length (g_links g) -> nth i (g_links g) (0, 0) = (a, b) ->
            (exists c d, uses g a b = [(c, d)] /\
               nth i (s_dual s) (0, 0) = (c, 0) /\ nth i (s_dir s) (0%Z, 0%Z) = (d, 0%Z)) \/
            (exists c d c' d', uses g a b = [(c, d); (c', d')] /\
               nth i (s_dual s) (0, 0) = (c, c') /\ nth i (s_dir s) (0%Z, 0%Z) = (d, d')))).
Proof.
  intros g Hs. split; [intros; now apply make_solver_key|]. intros Hl. split; [intros; now apply make_solver_val|].
  intros H. exists (dual_solver g). split; [now apply make_solver_ok|]. split; [reflexivity|].
  destruct (dual_length g) as [L1 L2]. split; auto. split; auto.
  intros i a b Hi E. destruct (dual_nth g i Hi) as [-> ->]. rewrite E. cbn [fst snd].
  assert (In (a, b) (g_links g)) as Hin by (rewrite <- E; now apply nth_In).
  specialize (H a b Hin). destruct (uses g a b) as [|[c d] [|[c' d'] [|? ?]]]; cbn [length] in H; try lia.
  - left. exists c, d. auto.
  - right. exists c, d, c', d'. auto.
Qed.
(** What an entry of [uses] means. *)
Theorem C08_uses : forall g a b c d, a < b ->
  In (c, d) (uses g a b) <->
  exists n, n < length (g_cycles g) /\ c = n + 1 /\
    ((d = 1%Z /\ In (a, b) (sides (nth n (g_cycles g) []))) \/
     (d = (-1)%Z /\ In (b, a) (sides (nth n (g_cycles g) [])))).
Proof. exact uses_In. Qed.
(** Planar graphs: one use, or two in opposite directions. *)
Theorem C08_planar : forall g a b, planar g -> In (a, b) (g_links g) -> planar_uses (uses g a b).
Proof. exact planar_uses_ok. Qed.
Example C08_witness :
  make_solver (Graph 4 [(0, 1); (1, 2); (0, 2); (1, 3); (2, 3)] [[0; 1; 2]; [1; 3; 2]]) =
  Ok (Solver (Graph 4 [(0, 1); (1, 2); (0, 2); (1, 3); (2, 3)] [[0; 1; 2]; [1; 3; 2]])
       [(1, 0); (1, 2); (1, 0); (2, 0); (2, 0)]
       [(1, 0); (1, -1); (-1, 0); (1, 0); (-1, 0)]%Z)
  /\ make_solver (Graph 3 [(0, 1); (1, 2)] [[0; 1; 2]]) = Err KeyError
  /\ make_solver (Graph 4 [(0, 1); (1, 2); (0, 2); (2, 3)] [[0; 1; 2]]) = Err ValueError.
Proof. vm_compute. auto. Qed.

(** ** C09 *)
Theorem C09_residues_points : forall g s p, planar g -> make_solver g = Ok s ->
  (length p <> g_npoints g -> compute_residues s p = Err ValueError) /\
  (length p = g_npoints g -> exists r, compute_residues s p = Ok r /\
     length r = S (length (g_cycles g)) /\ sumZ r = 0%Z /\
     (* exactly the curl of the wrapped differences, in cycles *)
     forall n, n < length (g_cycles g) ->
       (circQ (fun a b => phase_diff (nth a p 0%Q) (nth b p 0%Q) 0) (nth n (g_cycles g) [])
        == twopi * inject_Z (nth (n + 1) r 0%Z))%Q).
Proof.
  intros g s p Hp Hs. rewrite (solver_of g s Hp Hs). split.
  - intros H. unfold compute_residues. cbn [dual_solver s_graph].
    destruct (Nat.eqb_spec (length p) (g_npoints g)); [contradiction|reflexivity].
  - intros HL. destruct (compute_residues_spec g p Hp HL) as (r & Er & H1 & H2 & _). exists r.
    repeat split; auto. intros n Hn. now apply (residue_exact g p r n).
Qed.
Theorem C09_residues_gradients : forall g s gr, planar g -> make_solver g = Ok s ->
  (length gr <> length (g_links g) -> compute_residues_from_gradients s gr = Err ValueError) /\
  (length gr = length (g_links g) -> exists r, compute_residues_from_gradients s gr = Ok r /\
     length r = S (length (g_cycles g)) /\ sumZ r = 0%Z /\
     (* any values: the nearest whole number of cycles to the curl *)
     (forall n, n < length (g_cycles g) ->
        nth (n + 1) r 0%Z = rint (circQ (link_val 0%Q (g_links g) gr) (nth n (g_cycles g) []) / twopi)) /\
     (* values congruent to point differences: exactly the curl *)
     (forall x m, congruent_links g gr x m -> forall n, n < length (g_cycles g) ->
        nth (n + 1) r 0%Z = circZ m (nth n (g_cycles g) []) /\
        (circQ (link_val 0%Q (g_links g) gr) (nth n (g_cycles g) []) == twopi * inject_Z (nth (n + 1) r 0%Z))%Q) /\
     (* differences of a potential: all zero *)
     (forall phi, potentialQ g (link_val 0%Q (g_links g) gr) phi -> forall x, In x r -> x = 0%Z)).
Proof.
  intros g s gr Hp Hs. rewrite (solver_of g s Hp Hs). split.
  - intros H. unfold compute_residues_from_gradients. cbn [dual_solver s_graph].
    destruct (Nat.eqb_spec (length gr) (length (g_links g))); [contradiction|reflexivity].
  - intros HL. destruct (residues_from_gradients_spec g gr Hp HL) as (r & Er & H1 & H2 & H3). exists r.
    repeat split; auto.
    + now apply (residues_grad_exact g gr x m r).
    + rewrite (residues_grad_exact g gr x m r) by auto. apply (circ_congruent g gr x m); auto. now apply nth_In.
    + intros phi Hphi x Hx.
      assert (forall n, n < length (g_cycles g) -> nth (n + 1) r 0%Z = 0%Z) as Hz.
      { intros n Hn. rewrite H3 by auto. rewrite (rint_comp _ (inject_Z 0)); [apply rint_inject|].
        rewrite (circQ_potential g phi) by (auto; now apply nth_In). unfold Qdiv. ring. }
      destruct r as [|r0 rs]; [destruct Hx|]. cbn [length] in H1.
      assert (forall y, In y rs -> y = 0%Z) as Hrs.
      { intros y Hy. apply (In_nth _ _ 0%Z) in Hy as (n & Hlt & <-). specialize (Hz n ltac:(lia)).
        rewrite Nat.add_1_r in Hz. exact Hz. }
      rewrite sumZ_cons in H2. rewrite <- (map_id rs), sumZ_map_zero in H2 by auto.
      destruct Hx as [<-|Hx]; [lia|auto].
Qed.
Theorem C09_residues_agree : forall g s p, planar g -> make_solver g = Ok s -> length p = g_npoints g ->
  compute_residues_from_gradients s
    (map (fun l => phase_diff (nth (fst l) p 0%Q) (nth (snd l) p 0%Q) 0) (g_links g)) = compute_residues s p.
Proof.
  intros g s p Hp Hs HL. rewrite (solver_of g s Hp Hs).
  destruct (compute_residues_spec g p Hp HL) as (r & Er & H1 & H2 & H3).
  set (gr := map _ (g_links g)). assert (length gr = length (g_links g)) as HG by (unfold gr; now rewrite map_length).
  destruct (residues_from_gradients_spec g gr Hp HG) as (r' & Er' & H1' & H2' & H3').
  rewrite Er, Er'. f_equal.
  assert (forall n, n < length (g_cycles g) -> nth (n + 1) r' 0%Z = nth (n + 1) r 0%Z) as Ht.
  { intros n Hn. rewrite H3, H3' by auto. apply rint_comp. apply Qmult_comp; [|reflexivity].
    apply (circQ_ext g); auto; [now apply nth_In|]. intros a b Hl.
    unfold gr. rewrite (link_val_map 0%Q (g_links g) (fun l => phase_diff (nth (fst l) p 0%Q) (nth (snd l) p 0%Q) 0) a b Hl).
    reflexivity. }
  destruct r as [|r0 rs], r' as [|r0' rs']; cbn [length] in *; try lia.
  assert (rs' = rs) as ->.
  { apply (nth_ext _ _ 0%Z 0%Z); [lia|]. intros n Hn. specialize (Ht n ltac:(lia)).
    rewrite Nat.add_1_r in Ht. exact Ht. }
  rewrite sumZ_cons in *. f_equal. lia.
Qed.

(** A 2 x 2 grid with one residue. *)
Definition g22 : graph := Graph 4 [(0, 1); (2, 3); (0, 2); (1, 3)] [[0; 2; 3; 1]].
Definition s22 : solver := Solver g22 [(1, 0); (1, 0); (1, 0); (1, 0)] [(-1, 0); (1, 0); (1, 0); (-1, 0)]%Z.
Definition p22 : list Q := [0; 2; -2; 4]%Q.
Example g22_real : reg2d 2 2 = Ok g22 /\ make_solver g22 = Ok s22.
Proof. vm_compute. auto. Qed.
Example g22_planar : planar g22.
Proof. apply (reg2d_planar 2 2); lia. Qed.
Example C09_witness : compute_residues s22 p22 = Ok [1; -1]%Z.
Proof. vm_compute. reflexivity. Qed.

(** ** C10 *)
Theorem C10_flows_cancel : forall smcf g s residues cost revcost k, smcf_sound smcf -> planar g ->
  make_solver g = Ok s -> length residues = S (length (g_cycles g)) ->
  residues_to_flows smcf s residues cost revcost = Ok k ->
  cancels g residues k.
Proof.
  intros smcf g s r c rc k Hs Hp Hm HL H. rewrite (solver_of g s Hp Hm) in H. exact (flows_cancel smcf g r c rc k Hs Hp HL H).
Qed.
(** A solver that answers one fixed flow: used to show concrete runs. *)
Definition fixed_flow (f : list Z) : list arc -> list Z -> option (list Z) := fun _ _ => Some f.
Example C10_witness : residues_to_flows (fixed_flow [0; 0; 0; 0; 0; 1; 0; 0]%Z) s22 [1; -1]%Z [3; 1; 3; 3]%Z None = Ok [0; 1; 0; 0]%Z
  /\ circZ (link_val 0%Z (g_links g22) [0; 1; 0; 0]%Z) [0; 2; 3; 1] = 1%Z.
Proof. vm_compute. auto. Qed.

(** ** C11 *)
Theorem C11_flows_optimal : forall smcf g s residues cost revcost k, smcf_sound smcf -> planar g ->
  make_solver g = Ok s -> length residues = S (length (g_cycles g)) ->
  (forall c, In c cost -> 0 <= c)%Z -> (forall c, In c (rev_or cost revcost) -> 0 <= c)%Z ->
  residues_to_flows smcf s residues cost revcost = Ok k ->
  fits_int32 k /\
  forall k', cancels g residues k' -> fits_int32 k' ->
    (price cost (rev_or cost revcost) k <= price cost (rev_or cost revcost) k')%Z.
Proof.
  intros smcf g s r c rc k Hs Hp Hm HL Pc Pr H. rewrite (solver_of g s Hp Hm) in H.
  exact (flows_optimal smcf g r c rc k Hs Hp HL Pc Pr H).
Qed.
Theorem C11_zero_residues : forall smcf s residues cost revcost,
  (forall x, In x residues -> x = 0%Z) ->
  residues_to_flows smcf s residues cost revcost = Ok (repeat 0%Z (length (g_links (s_graph s)))).
Proof.
  intros smcf s r c rc H. unfold residues_to_flows. now rewrite (proj2 (forallb_zero r) H).
Qed.
Theorem C11_unbalanced : forall smcf g s residues cost revcost, planar g -> make_solver g = Ok s ->
  sumZ residues <> 0%Z -> residues_to_flows smcf s residues cost revcost = Err ValueError.
Proof.
  intros smcf g s r c rc Hp Hm H. rewrite (solver_of g s Hp Hm). now apply flows_unbalanced.
Qed.
Example C11_witness : cancels g22 [1; -1]%Z [0; 1; 0; 0]%Z /\ cancels g22 [1; -1]%Z [-1; 0; 0; 0]%Z /\
  price [3; 1; 3; 3]%Z [3; 1; 3; 3]%Z [0; 1; 0; 0]%Z = 1%Z /\
  price [3; 1; 3; 3]%Z [3; 1; 3; 3]%Z [-1; 0; 0; 0]%Z = 3%Z.
Proof.
  assert (forall k, length k = 4 ->
    circZ (link_val 0%Z (g_links g22) k) [0; 2; 3; 1] = 1%Z -> cancels g22 [1; -1]%Z k) as H.
  { intros k HL Hk. split; [exact HL|]. intros [|c] Hc; [exact Hk|cbn in Hc; lia]. }
  repeat split; try (apply H; reflexivity).
Qed.

(** ** C12 *)
Theorem C12_feasible : forall smcf g s p cost revcost, smcf_complete smcf -> planar g ->
  make_solver g = Ok s -> length p = g_npoints g ->
  length cost = length (g_links g) -> length (rev_or cost revcost) = length (g_links g) ->
  exists r k, compute_residues s p = Ok r /\ residues_to_flows smcf s r cost revcost = Ok k /\
    sumZ r = 0%Z /\
    exists f, feasible (mcf_arcs (s_dual s) (map fst (s_dir s)) cost (rev_or cost revcost)) r f.
Proof.
  intros smcf g s p cost revcost Hc Hp Hs HL HC HR. rewrite (solver_of g s Hp Hs).
  destruct (compute_residues_spec g p Hp HL) as (r & Er & HLr & Hz & _).
  pose proof (pdm_cancels g p r Hp HL Er) as Hk. pose proof (pdm_int32 g p) as Hf.
  destruct (flows_exist smcf g r cost revcost _ Hc Hp HLr Hz HC HR Hk Hf) as [k Ek].
  exists r, k. repeat split; auto. eexists. apply (arc_flow_feasible g cost (rev_or cost revcost) r _ Hp HC HR HLr Hz Hk Hf).
Qed.
Theorem C12_feasible_gradients : forall smcf g s gr x m cost revcost, smcf_complete smcf -> planar g ->
  make_solver g = Ok s -> length gr = length (g_links g) ->
  length cost = length (g_links g) -> length (rev_or cost revcost) = length (g_links g) ->
  congruent_links g gr x m ->
  (forall a b, In (a, b) (g_links g) -> (- int32_max <= m a b <= int32_max)%Z) ->
  exists r k, compute_residues_from_gradients s gr = Ok r /\ residues_to_flows smcf s r cost revcost = Ok k.
Proof.
  intros smcf g s gr x m cost revcost Hc Hp Hs HL HC HR Hm Hb. rewrite (solver_of g s Hp Hs).
  destruct (residues_from_gradients_spec g gr Hp HL) as (r & Er & HLr & Hz & _).
  pose proof (grad_cancels g gr x m r Hp HL Hm Er) as Hk.
  assert (fits_int32 (map (fun l => - m (fst l) (snd l))%Z (g_links g))) as Hf.
  { intros y Hy. apply in_map_iff in Hy as ([a b] & <- & Hl). specialize (Hb a b Hl). cbn [fst snd]. lia. }
  destruct (flows_exist smcf g r cost revcost _ Hc Hp HLr Hz HC HR Hk Hf) as [k Ek]. eauto.
Qed.
Example C12_witness : exists r k, compute_residues s22 p22 = Ok r /\
  residues_to_flows brute s22 r [3; 1; 3; 3]%Z None = Ok k.
Proof.
  destruct (C12_feasible brute g22 s22 p22 [3; 1; 3; 3]%Z None brute_complete g22_planar (proj2 g22_real) eq_refl eq_refl eq_refl)
    as (r & k & H1 & H2 & _). exists r, k; exact (conj H1 H2).
Qed.

(** ** C13 *)
Theorem C13_flood_exact : forall indata links flows m npts phi,
  m <> OtherMode -> length links = length flows -> max_point links = Ok npts ->
  length indata = match m with Gradients => length links | _ => npts end ->
  (forall v, v < npts -> reach links 0 v) ->
  (* gradient plus flow on every link is a potential difference *)
  (forall n a b, n < length links -> nth n links (0, 0) = (a, b) ->
     ((match m with Points => phase_diff (nth a indata 0) (nth b indata 0) 0 | _ => nth n indata 0 end)
        + twopi * inject_Z (nth n flows 0%Z) == phi b - phi a)%Q) ->
  exists u, flood_fill indata links flows m = Ok u /\ length u = npts /\
    forall v, v < npts ->
      (nth v u 0 == phi v - phi 0%nat + match m with Points => nth 0 indata 0 | _ => 0 end)%Q.
Proof.
  intros indata links flows m npts phi Hm HF HN HI Hr Hphi.
  apply (flood_exact indata links flows m npts Hm HF HN HI phi Hr).
  intros n a b Hn E. rewrite <- (Hphi n a b Hn E). unfold total_grad, link_grads.
  rewrite (map_nth' _ _ n 0) by (rewrite seq_length; auto). rewrite seq_nth by auto. cbn [Nat.add]. rewrite E.
  reflexivity.
Qed.
(** Termination on every input: the fuel is never exhausted. *)
Theorem C13_terminates : forall indata links flows m, flood_fill indata links flows m <> Err OutOfFuel.
Proof. intros indata links flows m H. apply flood_rejects in H. discriminate. Qed.
Definition vals (r : res (list Q)) : option (list Q) :=
  match r with Ok l => Some (map Qred l) | Err _ => None end.
Example C13_witness :
  vals (flood_fill [1; 3; -2]%Q [(0, 2); (1, 2); (0, 1)] [0; 0; 0]%Z Gradients) = Some [0; -2; 1]%Q
  /\ vals (flood_fill [5; 8; 6]%Q [(0, 2); (1, 2); (0, 1)] [0; 0; 0]%Z Points) = Some [5; 8; 6]%Q
  /\ max_point [(0, 2); (1, 2); (0, 1)] = Ok 3.
Proof. vm_compute. auto. Qed.

(** ** C14 *)
Theorem C14_flood_sound : forall indata links flows m u,
  flood_fill indata links flows m = Ok u ->
  m <> OtherMode /\ length links = length flows /\
  exists npts, max_point links = Ok npts /\
    length indata = match m with Gradients => length links | _ => npts end /\
    length u = npts /\ (forall v, v < npts -> reach links 0 v) /\
    (nth 0 u 0 == match m with Points => nth 0 indata 0 | _ => 0 end)%Q /\
    forall n a b, n < length links -> nth n links (0, 0) = (a, b) ->
      let d := (nth b u 0 - nth a u 0 -
        ((match m with Points => phase_diff (nth a indata 0) (nth b indata 0) 0 | _ => nth n indata 0 end)
          + twopi * inject_Z (nth n flows 0%Z)))%Q in
      (- (1 # 1000) <= d <= 1 # 1000)%Q.
Proof.
  intros indata links flows m u H. pose proof H as H0. unfold flood_fill in H0.
  destruct (Nat.eqb_spec (length links) (length flows)) as [HF|]; cbn [negb] in H0; [|discriminate].
  assert (m <> OtherMode) as Hm by (destruct m; discriminate).
  split; auto. split; auto.
  destruct (max_point links) as [npts|e] eqn:HN; [|destruct m; discriminate].
  assert (length indata = match m with Gradients => length links | _ => npts end) as HI.
  { cbn [bind] in H0. destruct (Nat.eqb_spec (length indata) (match m with Gradients => length links | _ => npts end)) as [|N]; auto.
    apply Nat.eqb_neq in N. destruct m; try discriminate; rewrite N in H0; discriminate. }
  exists npts. split; auto. split; auto.
  destruct (flood_sound indata links flows m npts Hm HF HN HI u H) as (A & B & C & D).
  split; auto. split; auto. split; [exact C|].
  intros n a b Hn E. specialize (D n a b Hn E). unfold close, total_grad, link_grads in D.
  rewrite (map_nth' _ _ n 0) in D by (rewrite seq_length; auto). rewrite seq_nth in D by auto.
  cbn [Nat.add] in D. rewrite E in D. exact D.
Qed.
(** Every failure is a ValueError; the listed situations are failures. *)
Theorem C14_flood_rejects : forall indata links flows m,
  (forall e, flood_fill indata links flows m = Err e -> e = ValueError) /\
  (m = OtherMode \/ length links <> length flows \/ links = [] \/
   (exists npts, max_point links = Ok npts /\
      (length indata <> match m with Gradients => length links | _ => npts end \/
       exists v, v < npts /\ ~ reach links 0 v)) ->
   flood_fill indata links flows m = Err ValueError).
Proof.
  intros indata links flows m. split; [apply flood_rejects|]. intros H.
  destruct (flood_fill indata links flows m) as [u|e] eqn:E; [|apply flood_rejects in E; now subst].
  exfalso. apply C14_flood_sound in E as (A & B & npts & HN & HI & HL & HR & _).
  destruct H as [H|[H|[H|(npts' & HN' & H)]]]; try contradiction.
  - subst. discriminate.
  - rewrite HN in HN'. injection HN' as <-. destruct H as [H|(v & Hv & H)]; [contradiction|]. now apply H, HR.
Qed.
Example C14_witness :
  flood_fill [1; 2; 3]%Q [(0, 2); (1, 2); (0, 1)] [0; 0; 0]%Z Gradients = Err ValueError
  /\ flood_fill [1; 2]%Q [(0, 1); (2, 3)] [0; 0]%Z Gradients = Err ValueError
  /\ (exists u, flood_fill [1; 1 # 2000; -1]%Q [(0, 1); (1, 2); (0, 2)] [0; 0; 0]%Z Gradients = Err ValueError
       /\ flood_fill [1; 1 # 2000; 1]%Q [(0, 1); (1, 2); (0, 2)] [0; 0; 0]%Z Gradients = Ok u).
Proof. split; [vm_compute; reflexivity|]. split; [vm_compute; reflexivity|]. eexists. split; vm_compute; reflexivity. Qed.

(** ** C15. [unwraps] spelled out: *)
Lemma unwraps_def g p u k : unwraps g p u k <->
  length u = g_npoints g /\ (nth 0 u 0 == nth 0 p 0)%Q /\
  (forall v, v < g_npoints g -> cong2pi (nth v u 0%Q) (nth v p 0%Q)) /\
  (forall a b, In (a, b) (g_links g) ->
     (nth b u 0 - nth a u 0 == phase_diff (nth a p 0) (nth b p 0) 0
       + twopi * inject_Z (link_val 0%Z (g_links g) k a b))%Q).
Proof. reflexivity. Qed.
Theorem C15_unwrap_returns : forall smcf g s p cost revcost, smcf_sound smcf -> smcf_complete smcf ->
  planar g -> make_solver g = Ok s -> length p = g_npoints g ->
  length cost = length (g_links g) -> length (rev_or cost revcost) = length (g_links g) ->
  exists u k, unwrap_one smcf s p cost revcost = Ok (u, k) /\
    length k = length (g_links g) /\ unwraps g p u k.
Proof.
  intros smcf g s p cost revcost Hs Hc Hp Hm HL HC HR. rewrite (solver_of g s Hp Hm). now apply unwrap_total.
Qed.
(** Whatever is returned is right, without any bound on the data. *)
Theorem C15_unwrap_sound : forall smcf g s p cost revcost u k, smcf_sound smcf ->
  planar g -> make_solver g = Ok s ->
  unwrap_one smcf s p cost revcost = Ok (u, k) -> length k = length (g_links g) /\ unwraps g p u k.
Proof.
  intros smcf g s p cost revcost u k Hs Hp Hm. rewrite (solver_of g s Hp Hm). now apply unwrap_sound.
Qed.
(** The grids and the hop-3 graphs are covered. *)
Theorem C15_covers : (forall h w, 2 <= h -> 2 <= w -> exists g s, reg2d h w = Ok g /\ planar g /\ make_solver g = Ok s)
  /\ (forall n, (4 <= n)%Z -> exists g s, hop3 n = Ok g /\ planar g /\ make_solver g = Ok s).
Proof.
  split.
  - intros h w Hh Hw. exists (reg2d_graph h w), (dual_solver (reg2d_graph h w)).
    assert (planar (reg2d_graph h w)) by now apply reg2d_planar.
    split; [apply reg2d_ok; lia|]. split; auto. now apply planar_solver.
  - intros n Hn. exists (hop3_graph (Z.to_nat n)), (dual_solver (hop3_graph (Z.to_nat n))).
    assert (planar (hop3_graph (Z.to_nat n))) by (apply hop3_planar; lia).
    split; [rewrite <- (Z2Nat.id n) at 1 by lia; apply hop3_ok; lia|]. split; auto. now apply planar_solver.
Qed.
Definition result (r : res (list Q * list Z)) : option (list Q * list Z) :=
  match r with Ok (u, k) => Some (map Qred u, k) | Err _ => None end.
Example C15_witness :
  result (unwrap_one (fixed_flow [0; 0; 0; 0; 0; 1; 0; 0]%Z) s22 p22 [3; 1; 3; 3]%Z None)
    = Some ([0; 2; -2; 4]%Q, [0; 1; 0; 0]%Z)
  /\ unwrap_one (fixed_flow [1; 0; 0; 0; 0; 0; 0; 0]%Z) s22 p22 [3; 1; 3; 3]%Z None = Err ValueError.
Proof. split; vm_compute; reflexivity. Qed.
Example C15_nonvacuous : exists u k, unwrap_one brute s22 p22 [3; 1; 3; 3]%Z None = Ok (u, k).
Proof.
  destruct (C15_unwrap_returns brute g22 s22 p22 [3; 1; 3; 3]%Z None brute_sound brute_complete g22_planar
    (proj2 g22_real) eq_refl eq_refl eq_refl) as (u & k & H & _).
  exists u, k. exact H.
Qed.

(** ** C16: nothing at all is assumed of the flow solver or the costs. *)
Theorem C16_smooth : forall smcf g s p phi cost revcost, planar g -> make_solver g = Ok s ->
  length p = g_npoints g ->
  (forall v, v < g_npoints g -> cong2pi (nth v p 0%Q) (phi v)) ->
  (forall a b, In (a, b) (g_links g) -> (- half < phi b - phi a < half)%Q) ->
  exists u, unwrap_one smcf s p cost revcost = Ok (u, repeat 0%Z (length (g_links g))) /\
    length u = g_npoints g /\
    exists n : Z, forall v, v < g_npoints g -> (nth v u 0 == phi v + twopi * inject_Z n)%Q.
Proof.
  intros smcf g s p phi cost revcost Hp Hm HL H1 H2. rewrite (solver_of g s Hp Hm). now apply unwrap_smooth.
Qed.
Example C16_witness :
  result (unwrap_one (fun _ _ => None) s22 [1; 3; 3 - twopi; 5 - twopi]%Q [] None)
    = Some ([1; 3; 3; 5]%Q, [0; 0; 0; 0]%Z).
Proof. vm_compute. reflexivity. Qed.

Print Assumptions C07_phase_diff.
Print Assumptions C07_tie_refuted.
Print Assumptions C08_dual.
Print Assumptions C08_uses.
Print Assumptions C08_planar.
Print Assumptions C09_residues_points.
Print Assumptions C09_residues_gradients.
Print Assumptions C09_residues_agree.
Print Assumptions C10_flows_cancel.
Print Assumptions C11_flows_optimal.
Print Assumptions C11_zero_residues.
Print Assumptions C11_unbalanced.
Print Assumptions C12_feasible.
Print Assumptions C12_feasible_gradients.
Print Assumptions C13_flood_exact.
Print Assumptions C13_terminates.
Print Assumptions C14_flood_sound.
Print Assumptions C14_flood_rejects.
Print Assumptions C15_unwrap_returns.
Print Assumptions C15_unwrap_sound.
Print Assumptions C15_covers.
Print Assumptions C16_smooth.
