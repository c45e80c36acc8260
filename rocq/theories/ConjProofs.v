(** Negating all phases: the min-cost-flow problem, flood_fill and the two steps of the
    stack unwrapping. *)
From Verif Require Import Base BaseLemmas GraphModel GraphSpec GraphProofs McfModel McfSpec
  PhaseProofs DualProofs ResidueProofs FlowProofs FloodProofs UnwrapProofs EmcfModel EmcfSpec PoolProofs BatchProofs BulkProofs EmcfProofs InvariantSpec InvariantProofs PerturbSpec PerturbProofs ConjSpec.
From Coq Require Import ZifyBool.
Set Default Goal Selector "!".
Local Open Scope Q_scope.

Local Lemma ok_inj {A} (x y : A) : Ok x = Ok y -> x = y.
Proof. congruence. Qed.

(** * Exchanging halves *)
Lemma swap_app {A} (a b : list A) : length a = length b -> swap_halves (a ++ b) = b ++ a.
Proof.
  intros E. unfold swap_halves. rewrite app_length, <- E.
  replace (length a + length a)%nat with (2 * length a)%nat by lia. rewrite Nat.even_mul. cbn [Nat.even orb]. rewrite Nat.div2_double.
  now rewrite skipn_app, firstn_app, skipn_all, Nat.sub_diag, firstn_all, firstn_O, app_nil_r.
Qed.
Lemma even_split {A} (l : list A) : Nat.even (length l) = true -> exists a b, l = a ++ b /\ length a = length b.
Proof.
  intros E. apply Nat.even_spec in E as [h E]. exists (firstn h l), (skipn h l). split; [now rewrite firstn_skipn|].
  rewrite firstn_length, skipn_length. lia.
Qed.
Lemma swap_cases {A} (l : list A) : swap_halves l = l \/ exists a b, l = a ++ b /\ length a = length b /\ swap_halves l = b ++ a.
Proof.
  destruct (Nat.even (length l)) eqn:E.
  - right. destruct (even_split l E) as (a & b & -> & L). exists a, b. split; [reflexivity|]. split; [exact L|]. now apply swap_app.
  - left. unfold swap_halves. now rewrite E.
Qed.
Lemma swap_len {A} (l : list A) : length (swap_halves l) = length l.
Proof. destruct (swap_cases l) as [->|(a & b & -> & L & ->)]; [reflexivity|]. rewrite !app_length. lia. Qed.
Lemma swap_inv {A} (l : list A) : swap_halves (swap_halves l) = l.
Proof.
  destruct (swap_cases l) as [E|(a & b & -> & L & ->)]; [now rewrite !E|]. now apply swap_app.
Qed.
Lemma swap_map {A B} (f : A -> B) l : map f (swap_halves l) = swap_halves (map f l).
Proof. unfold swap_halves. rewrite map_length. destruct (Nat.even _); [|reflexivity]. now rewrite map_app, firstn_map, skipn_map. Qed.
Lemma combine_app2 {A B} (a b : list A) (a' b' : list B) : length a = length a' -> combine (a ++ b) (a' ++ b') = combine a a' ++ combine b b'.
Proof. revert a'. induction a as [|x a IH]; intros [|y a'] E; cbn [length app combine] in *; try discriminate; [reflexivity|]. f_equal. apply IH. lia. Qed.
Lemma swap_combine {A B} (l : list A) (l' : list B) : length l = length l' -> combine (swap_halves l) (swap_halves l') = swap_halves (combine l l').
Proof.
  intros E. destruct (Nat.even (length l)) eqn:V.
  - destruct (even_split l V) as (a & b & -> & L). rewrite E in V. destruct (even_split l' V) as (a' & b' & -> & L').
    rewrite !app_length in E. rewrite !swap_app by auto. rewrite !combine_app2 by lia. rewrite swap_app; [reflexivity|]. rewrite !combine_length. lia.
  - unfold swap_halves. rewrite combine_length, <- E, Nat.min_id, V. reflexivity.
Qed.
Lemma sumZ_swap l : sumZ (swap_halves l) = sumZ l.
Proof. destruct (swap_cases l) as [->|(a & b & -> & L & ->)]; [reflexivity|]. rewrite !sumZ_app. lia. Qed.
Lemma In_swap {A} (l : list A) x : In x (swap_halves l) <-> In x l.
Proof. destruct (swap_cases l) as [->|(a & b & -> & L & ->)]; [tauto|]. rewrite !in_app_iff. tauto. Qed.

(** * The mirrored flow problem *)
Lemma flip_flip a : flip (flip a) = a.
Proof. now destruct a. Qed.
Lemma mirror_arcs arcs : swap_halves (map flip (swap_halves (map flip arcs))) = arcs.
Proof.
  rewrite swap_map, swap_inv, map_map. rewrite <- (map_id arcs) at 2. apply map_ext. apply flip_flip.
Qed.
Lemma opp_opp l : map Z.opp (map Z.opp l) = l.
Proof. rewrite map_map. rewrite <- (map_id l) at 2. apply map_ext. intros. lia. Qed.
Lemma nth_opp l v : nth v (map Z.opp l) 0%Z = (- nth v l 0)%Z.
Proof. change 0%Z with (Z.opp 0) at 1. apply map_nth. Qed.
Lemma sumZ_opp l : sumZ (map Z.opp l) = (- sumZ l)%Z.
Proof. induction l as [|x l IH]; [reflexivity|]. cbn [map]. rewrite !sumZ_cons, IH. lia. Qed.

Lemma sum_mirror (h : arc * Z -> Z) arcs f : length f = length arcs ->
  sumZ (map h (combine (swap_halves (map flip arcs)) (swap_halves f))) = sumZ (map (fun af => h (flip (fst af), snd af)) (combine arcs f)).
Proof.
  intros L. rewrite swap_combine by (rewrite map_length; lia). rewrite swap_map, sumZ_swap. f_equal.
  clear L. revert f. induction arcs as [|a arcs IH]; intros [|x f]; cbn [map combine fst snd]; auto. now rewrite IH.
Qed.

Lemma feasible_mirror arcs s f : feasible arcs s f -> feasible (swap_halves (map flip arcs)) (map Z.opp s) (swap_halves f).
Proof.
  intros (L & C & N). split; [rewrite !swap_len, map_length; exact L|]. split.
  - assert (forall p, In p (combine (swap_halves (map flip arcs)) (swap_halves f)) -> (0 <= snd p <= a_cap (fst p))%Z) as K.
    { intros p I. rewrite swap_combine in I by (rewrite map_length; lia). apply (proj1 (In_swap _ _)) in I.
      apply (In_nth _ _ (Arc 0 0 0 0, 0%Z)) in I as (k & Bk & <-).
      assert (k < length arcs)%nat as B0 by (pose proof (combine_length (map flip arcs) f) as Q; rewrite map_length in Q; lia).
      rewrite combine_nth by (rewrite map_length; lia). cbn [fst snd]. rewrite (map_nth' flip _ _ (Arc 0 0 0 0)) by lia.
      cbn [flip a_cap]. apply C. lia. }
    intros i B. rewrite swap_len, map_length in B. specialize (K (nth i (combine (swap_halves (map flip arcs)) (swap_halves f)) (Arc 0 0 0 0, 0%Z))).
    rewrite combine_nth in K by (rewrite !swap_len, map_length; lia). apply K.
    rewrite <- combine_nth by (rewrite !swap_len, map_length; lia). apply nth_In. rewrite combine_length, !swap_len, map_length. lia.
  - intros v B. rewrite map_length in B. rewrite nth_opp, <- (N v B). unfold node_sum. rewrite !sum_mirror by auto.
    cbn [fst snd flip a_from a_to]. lia.
Qed.

Lemma cost_mirror arcs f : length f = length arcs -> flow_cost (swap_halves (map flip arcs)) (swap_halves f) = flow_cost arcs f.
Proof. intros L. unfold flow_cost. rewrite sum_mirror by auto. reflexivity. Qed.

Lemma optimal_mirror arcs s f : optimal arcs s f -> optimal (swap_halves (map flip arcs)) (map Z.opp s) (swap_halves f).
Proof.
  intros [F O]. split; [now apply feasible_mirror|]. intros f' F'. pose proof (feasible_mirror _ _ _ F') as K. rewrite mirror_arcs, opp_opp in K.
  specialize (O _ K). rewrite cost_mirror by apply F. rewrite <- (cost_mirror arcs (swap_halves f')) in O by apply K. now rewrite swap_inv in O.
Qed.

Definition mirror (smcf : list arc -> list Z -> option (list Z)) : list arc -> list Z -> option (list Z) :=
  fun arcs s => option_map swap_halves (smcf (swap_halves (map flip arcs)) (map Z.opp s)).

Lemma mirror_mirrors smcf : mirrors smcf (mirror smcf).
Proof. intros arcs s. unfold mirror. now rewrite mirror_arcs, opp_opp. Qed.

Lemma mirror_sound smcf : smcf_sound smcf -> smcf_sound (mirror smcf).
Proof.
  intros H arcs s f E. unfold mirror in E. destruct (smcf _ _) as [f0|] eqn:E0; [|discriminate]. cbn [option_map] in E. injection E as <-.
  apply H, optimal_mirror in E0. now rewrite mirror_arcs, opp_opp in E0.
Qed.

Lemma mirror_complete smcf : smcf_complete smcf -> smcf_complete (mirror smcf).
Proof.
  intros H arcs s (f & F) E. unfold mirror in E. destruct (smcf _ _) as [f0|] eqn:E0; [discriminate|].
  apply (H _ _ (ex_intro _ _ (feasible_mirror _ _ _ F)) E0).
Qed.

(** * solve_mcf *)
Definition neg_ok (r : res (list Z)) : res (list Z) := do k <- r; Ok (map Z.opp k).

Lemma arcs_mirror dual dir0 cost revcost : length cost = length revcost ->
  mcf_arcs dual dir0 revcost cost = swap_halves (map flip (mcf_arcs dual dir0 cost revcost)).
Proof.
  intros L. unfold mcf_arcs. rewrite map_app, swap_app by now rewrite !map_length, !combine_length.
  assert (combine dual (combine dir0 (combine revcost cost)) =
    map (fun t : nat * nat * (Z * (Z * Z)) => (fst t, (fst (snd t), (snd (snd (snd t)), fst (snd (snd t)))))) (combine dual (combine dir0 (combine cost revcost)))) as ->.
  { clear L. revert dir0 cost revcost. induction dual as [|x dual IH]; intros [|d dir0] [|c cost] [|r revcost]; cbn [combine map fst snd]; auto. now rewrite IH. }
  rewrite !map_map. f_equal; apply map_ext; intros [[u v] [d [c r]]]; cbn [fst snd]; unfold flip; cbn [a_from a_to a_cap a_cost]; f_equal; lia.
Qed.

Section Mirror.
Variables (smcf smcf' : list arc -> list Z -> option (list Z)).
Hypothesis Hsm : smcf_sound smcf.
Hypothesis Hm : mirrors smcf smcf'.

Lemma solve_mirror dual dir r cost revcost : length dir = length dual ->
  solve_mcf smcf' dual dir (map Z.opp r) revcost cost = neg_ok (solve_mcf smcf dual dir r cost revcost).
Proof using Hsm Hm.
  intros Ld. unfold solve_mcf, neg_ok. rewrite sumZ_opp. destruct (Z.eqb_spec (sumZ r) 0) as [Z0|Z0], (Z.eqb_spec (- sumZ r) 0) as [Z1|Z1]; try lia; cbn [negb bind]; [|reflexivity].
  destruct (Nat.eqb_spec (length cost) (length dual)) as [E|N], (Nat.eqb_spec (length revcost) (length dual)) as [E'|N']; cbn [andb negb bind]; auto.
  rewrite arcs_mirror by congruence. rewrite (Hm _ _). destruct (smcf (mcf_arcs dual (map fst dir) cost revcost) r) as [f|] eqn:Ef; cbn [option_map bind]; [|reflexivity].
  f_equal. rewrite map_map. apply map_ext_in. intros i I. apply in_seq in I.
  apply Hsm in Ef as [[L _] _]. unfold mcf_arcs in L. rewrite app_length, !map_length, !combine_length, map_length in L.
  assert (length f = length dual + length dual)%nat as Lf by lia. clear L.
  destruct (even_split f) as (a & b & -> & Lab).
  { rewrite Lf. replace (length dual + length dual)%nat with (2 * length dual)%nat by lia. now rewrite Nat.even_mul. }
  rewrite app_length in Lf. rewrite swap_app by auto. rewrite (@app_nth1 _ b a 0%Z i) by lia. rewrite (@app_nth1 _ a b 0%Z i) by lia. rewrite (app_nth2 b a) by lia. rewrite (app_nth2 a b) by lia.
  replace (i + length dual - length a)%nat with i by lia. replace (i + length dual - length b)%nat with i by lia. ring.
Qed.

Lemma zero_opp r : forallb (fun x => (x =? 0)%Z) (map Z.opp r) = forallb (fun x => (x =? 0)%Z) r.
Proof using. induction r as [|x r IH]; [reflexivity|]. cbn [map forallb]. rewrite IH. f_equal. lia. Qed.

Lemma flows_mirror g r cost revcost : residues_to_flows smcf' (dual_solver g) (map Z.opp r) (rev_or cost revcost) (Some cost)
  = neg_ok (residues_to_flows smcf (dual_solver g) r cost revcost).
Proof using Hsm Hm.
  unfold residues_to_flows. rewrite zero_opp. destruct (forallb _ _).
  - unfold neg_ok. cbn [bind]. f_equal. clear. induction (length _) as [|n IH]; cbn [repeat map]; [reflexivity|]. now rewrite <- IH.
  - destruct (dual_length g) as [L L']. rewrite solve_mirror by congruence. unfold rev_or. destruct revcost; reflexivity.
Qed.
Lemma flows_mirror0 g r cost : residues_to_flows smcf' (dual_solver g) (map Z.opp r) cost None = neg_ok (residues_to_flows smcf (dual_solver g) r cost None).
Proof using Hsm Hm. rewrite <- flows_mirror. reflexivity. Qed.
End Mirror.

(** * Phases *)
Lemma pd_comp a b a' b' : a == a' -> b == b' -> phase_diff a b 0 == phase_diff a' b' 0.
Proof.
  intros E E'. unfold phase_diff. cbv zeta.
  rewrite (rint_comp ((b - a - 0) / twopi) ((b' - a' - 0) / twopi)); [|now rewrite E, E']. now rewrite E, E'.
Qed.
Lemma pd_neg a b a' b' : a' == - a -> b' == - b -> phase_diff a' b' 0 == - phase_diff a b 0.
Proof.
  intros E E'. rewrite (pd_comp a' b' (- a) (- b) E E'). unfold phase_diff. cbv zeta.
  rewrite (rint_comp ((- b - - a - 0) / twopi) (- ((b - a - 0) / twopi))); [|field; apply twopi_nz].
  rewrite rint_opp, inject_Z_opp. ring.
Qed.

(** * flood_fill *)
Definition ff_neg (a b : ff) : Prop :=
  ff_done a = ff_done b /\ ff_todo a = ff_todo b /\ ff_err a = ff_err b /\ opposite (ff_unw a) (ff_unw b).
Definition jg_neg (a b : nat * Q) : Prop := fst a = fst b /\ snd b == - snd a.

Lemma opposite_upd u u' j x x' : opposite u u' -> x' == - x -> opposite (upd u j x) (upd u' j x').
Proof.
  intros [L H] E. split; [now rewrite !upd_length|]. intros v. destruct (Nat.eq_dec v j) as [->|N].
  - destruct (Nat.lt_ge_cases j (length u)) as [B|B]; [now rewrite !nth_upd_eq by lia|].
    rewrite !nth_overflow by (rewrite upd_length; lia). reflexivity.
  - rewrite !nth_upd_neq by auto. apply H.
Qed.

Lemma ff_nbr_neg i st st' jg jg' : ff_neg st st' -> jg_neg jg jg' -> ff_neg (ff_nbr i st jg) (ff_nbr i st' jg').
Proof.
  intros (D & T & R & U) [J G]. destruct jg as [j g], jg' as [j' g']. cbn [fst snd] in J, G. subst j'.
  unfold ff_nbr. rewrite <- D. pose proof U as [_ V].
  destruct (nth j (ff_done st) false) eqn:F; cbn [negb].
  - assert (nth i (ff_unw st') 0 + g' - nth j (ff_unw st') 0 == - (nth i (ff_unw st) 0 + g - nth j (ff_unw st) 0)) as E'.
    { rewrite G, (V i), (V j). ring. }
    rewrite (Qle_bool_comp _ (1 # 1000) _ _ E' (Qeq_refl _)), (Qle_bool_comp (- (1 # 1000)) _ _ _ (Qeq_refl _) E').
    set (x := nth i (ff_unw st) 0 + g - nth j (ff_unw st) 0).
    assert ((Qle_bool (- x) (1 # 1000) && Qle_bool (- (1 # 1000)) (- x))%bool = (Qle_bool x (1 # 1000) && Qle_bool (- (1 # 1000)) x)%bool) as ->.
    { apply Bool.eq_iff_eq_true. rewrite !Bool.andb_true_iff, !Qle_bool_iff. split; intros [A B]; split; lra. }
    destruct (_ && _)%bool; [split; auto|]. split; cbn [ff_done ff_todo ff_unw ff_err]; auto.
  - unfold ff_neg. cbn [ff_done ff_todo ff_unw ff_err].
    split; [congruence|]. split; [congruence|]. split; [exact R|]. apply opposite_upd; [exact U|]. rewrite G, (V i). ring.
Qed.

Lemma ff_nbrs_neg i adj adj' : Forall2 jg_neg adj adj' -> forall st st', ff_neg st st' ->
  ff_neg (fold_left (ff_nbr i) adj st) (fold_left (ff_nbr i) adj' st').
Proof.
  induction 1 as [|x y adj adj' E _ IH]; intros st st' S; cbn [fold_left]; auto. apply IH. now apply ff_nbr_neg.
Qed.

Lemma ff_loop_neg adj adj' : (forall i, Forall2 jg_neg (adj i) (adj' i)) ->
  forall fuel st st', ff_neg st st' -> same_outcome ff_neg (ff_loop fuel adj st) (ff_loop fuel adj' st').
Proof.
  intros HA. induction fuel as [|fuel IH]; intros st st' S; pose proof S as (D & T & R & U); cbn [ff_loop]; rewrite <- T;
    destruct (ff_todo st) as [|i rest] eqn:E; cbn [same_outcome]; auto.
  apply IH. apply ff_nbrs_neg; [apply HA|]. split; cbn [ff_done ff_todo ff_unw ff_err]; auto.
Qed.

Lemma nbrs_neg links pt : forall gr gr', Forall2 (fun lg lg' : (nat * nat) * Q => fst lg = fst lg' /\ snd lg' == - snd lg) (combine links gr) (combine links gr') ->
  Forall2 jg_neg (nbrs links gr pt) (nbrs links gr' pt).
Proof.
  intros gr gr'. unfold nbrs. induction 1 as [|[[a b] x] [[a' b'] y] l l' [E1 E2] _ IH]; cbn [flat_map]; [constructor|].
  cbn [fst snd] in E1, E2. injection E1 as <- <-. apply Forall2_app; [|exact IH].
  apply Forall2_app; (destruct (_ =? pt)%nat; constructor; [|constructor]); (split; [reflexivity|]); cbn [snd]; rewrite E2; ring.
Qed.

Lemma flood_neg m indata indata' links flows :
  length indata = length indata' -> nth 0 indata' 0 == - nth 0 indata 0 ->
  (forall n, (n < length links)%nat ->
     nth n (link_grads m indata' links (map Z.opp flows)) 0 == - nth n (link_grads m indata links flows) 0) ->
  same_outcome opposite (flood_fill indata links flows m) (flood_fill indata' links (map Z.opp flows) m).
Proof.
  intros HL H0 HG. unfold flood_fill. rewrite <- HL, map_length.
  destruct (negb (length links =? length flows)%nat); [destruct m; reflexivity|].
  destruct (max_point links) as [npts|er] eqn:Em; [|destruct m; reflexivity]. cbn [bind].
  assert (same_outcome ff_neg
    (ff_loop npts (nbrs links (link_grads m indata links flows)) (FF (upd (repeat false npts) 0 true) [0%nat] (repeat 0 npts) 0))
    (ff_loop npts (nbrs links (link_grads m indata' links (map Z.opp flows))) (FF (upd (repeat false npts) 0 true) [0%nat] (repeat 0 npts) 0))) as K.
  { apply ff_loop_neg.
    - intros i. apply nbrs_neg. apply (Forall2_nth_iff _ _ _ ((0, 0)%nat, 0) ((0, 0)%nat, 0)).
      assert (forall dd ff, length (link_grads m dd links ff) = length links) as Lg by (intros; unfold link_grads; now rewrite map_length, seq_length).
      rewrite !combine_length, !Lg, Nat.min_id. split; [reflexivity|]. intros n Bn.
      rewrite !combine_nth by now rewrite Lg. cbn [fst snd]. split; [reflexivity|]. now apply HG.
    - split; [reflexivity|]. split; [reflexivity|]. split; [reflexivity|]. split; [reflexivity|]. cbn [ff_unw]. intros v.
      destruct (Nat.lt_ge_cases v npts) as [B|B]; [rewrite nth_repeat_lt by auto|rewrite nth_overflow by (rewrite repeat_length; lia)]; reflexivity. }
  assert (forall r r' : res ff, same_outcome ff_neg r r' ->
    forall (f : ff -> res (list Q)) f' R, (forall a b, ff_neg a b -> same_outcome R (f a) (f' b)) ->
      same_outcome R (bind r f) (bind r' f')) as B.
  { intros [a|x] [b|y] H f f' R HF; cbn [same_outcome bind] in *; auto; contradiction. }
  destruct m; [| |reflexivity]; (destruct (negb _); [reflexivity|]); cbv zeta; (eapply B; [exact K|]); clear K B;
    intros a b (D & T & R & L & U); rewrite <- R, <- D; (destruct (0 <? ff_err a)%nat; [reflexivity|]);
    (destruct (forallb (fun b => b) (ff_done a)) eqn:Fd; cbn [negb]; [|reflexivity]); cbn [same_outcome].
  - split; [rewrite !map_length; lia|]. intros v. destruct (Nat.lt_ge_cases v (length (ff_unw a))) as [Bv|Bv].
    + rewrite !(map_nth' _ _ _ 0) by lia. rewrite (U v), H0. ring.
    + rewrite !nth_overflow by (rewrite map_length; lia). reflexivity.
  - split; auto.
Qed.

(** * Residues *)
Lemma circ_neg g f f' c : planar g -> In c (g_cycles g) -> (forall a b, In (a, b) (g_links g) -> f' a b == - f a b) -> circQ f' c == - circQ f c.
Proof.
  intros Hp Ic H.
  assert (circQ (fun a b => f a b + f' a b) c == 0) as E.
  { rewrite (circQ_ext g _ (fun _ _ => 0) _ Hp Ic).
    - rewrite (circQ_potential g (fun _ => 0) (fun _ _ => 0) _ Hp Ic); [reflexivity|]. intros a b _. ring.
    - intros a b I. rewrite (H a b I). ring. }
  rewrite circQ_add in E. lra.
Qed.

Lemma neg_tail (r r' : list Z) N : length r = S N -> length r' = S N -> sumZ r = 0%Z -> sumZ r' = 0%Z ->
  (forall n, (n < N)%nat -> nth (n + 1) r' 0%Z = (- nth (n + 1) r 0)%Z) -> r' = map Z.opp r.
Proof.
  intros L L' S S' K. symmetry. apply (round_tail _ _ N); auto.
  - now rewrite map_length.
  - rewrite sumZ_opp, S. reflexivity.
  - intros n B. rewrite nth_opp. symmetry. now apply K.
Qed.

Lemma link_val_neg links gr gr' : opposite gr gr' -> forall a b, link_val 0 links gr' a b == - link_val 0 links gr a b.
Proof.
  revert gr gr'. induction links as [|[x y] links IH]; intros gr gr' [L H] a b; [reflexivity|].
  destruct gr as [|v gr], gr' as [|v' gr']; cbn [length] in L; try discriminate; cbn [link_val]; [reflexivity|].
  destruct (_ && _)%bool; [exact (H 0%nat)|]. apply IH. split; [lia|]. intros n. exact (H (S n)).
Qed.

Lemma grads_residues_neg g gr gr' : planar g -> opposite gr gr' ->
  compute_residues_from_gradients (dual_solver g) gr' = neg_ok (compute_residues_from_gradients (dual_solver g) gr).
Proof.
  intros Hp H. pose proof H as [HL _]. destruct (Nat.eq_dec (length gr) (length (g_links g))) as [E|N].
  2:{ unfold compute_residues_from_gradients. cbn [dual_solver s_graph]. rewrite HL. destruct (Nat.eqb_spec (length gr) (length (g_links g))); [contradiction|]. reflexivity. }
  destruct (residues_from_gradients_spec g gr Hp E) as (r & -> & Lr & Sr & Hr).
  destruct (residues_from_gradients_spec g gr' Hp ltac:(congruence)) as (r' & -> & Lr' & Sr' & Hr').
  unfold neg_ok. cbn [bind]. f_equal. apply (neg_tail _ _ (length (g_cycles g))); auto. intros n Hn. rewrite Hr, Hr' by auto. rewrite <- rint_opp. apply rint_comp.
  pose proof (nth_In (g_cycles g) [] Hn) as Ic.
  rewrite (circ_neg g (link_val 0 (g_links g) gr) (link_val 0 (g_links g) gr') _ Hp Ic); [unfold Qdiv; ring|]. intros a b _. now apply link_val_neg.
Qed.

Lemma one_residues_neg g p p' : planar g -> opposite p p' ->
  compute_residues (dual_solver g) p' = neg_ok (compute_residues (dual_solver g) p).
Proof.
  intros Hp H. pose proof H as [HL HH]. destruct (Nat.eq_dec (length p) (g_npoints g)) as [E|N].
  2:{ unfold compute_residues. cbn [dual_solver s_graph]. cbv zeta. rewrite HL. destruct (Nat.eqb_spec (length p) (g_npoints g)); [contradiction|]. reflexivity. }
  destruct (compute_residues_spec g p Hp E) as (r & -> & Lr & Sr & Hr).
  destruct (compute_residues_spec g p' Hp ltac:(congruence)) as (r' & -> & Lr' & Sr' & Hr').
  unfold neg_ok. cbn [bind]. f_equal. apply (neg_tail _ _ (length (g_cycles g))); auto. intros n Hn. rewrite Hr, Hr' by auto. rewrite <- rint_opp. apply rint_comp.
  pose proof (nth_In (g_cycles g) [] Hn) as Ic.
  rewrite (circ_neg g (pd_link p) (pd_link p') _ Hp Ic); [unfold Qdiv; ring|]. intros a b _. unfold pd_link. apply pd_neg; apply HH.
Qed.

Lemma opposite_flow x x' k : x' == - x -> x' + twopi * inject_Z (- k) == - (x + twopi * inject_Z k).
Proof. intros ->. rewrite inject_Z_opp. ring. Qed.

Section Solvers.
Variables (smcf smcf' : list arc -> list Z -> option (list Z)).
Hypothesis Hsm : smcf_sound smcf.
Hypothesis Hm : mirrors smcf smcf'.

(** * unwrap_one *)
Theorem one_neg g p p' cost revcost : planar g -> opposite p p' ->
  same_outcome (fun r r' => snd r' = map Z.opp (snd r) /\ opposite (fst r) (fst r'))
    (unwrap_one smcf (dual_solver g) p cost revcost) (unwrap_one smcf' (dual_solver g) p' (rev_or cost revcost) (Some cost)).
Proof using Hsm Hm.
  intros Hp H. pose proof H as [HL HH]. unfold unwrap_one. rewrite (one_residues_neg g p p' Hp H).
  destruct (compute_residues _ p) as [r|er]; unfold neg_ok; cbn [bind]; [|reflexivity].
  rewrite (flows_mirror smcf smcf' Hsm Hm g r cost revcost).
  replace (residues_to_flows smcf (dual_solver g) r cost (Some (match revcost with None => cost | Some rc => rc end)))
    with (residues_to_flows smcf (dual_solver g) r cost revcost) by (unfold residues_to_flows; destruct revcost; reflexivity).
  destruct (residues_to_flows smcf (dual_solver g) r cost revcost) as [k|er]; unfold neg_ok; cbn [bind]; [|reflexivity]. cbn [dual_solver s_graph].
  pose proof (flood_neg Points p p' (g_links g) k ltac:(congruence) (HH 0%nat)) as F.
  match type of F with ?A -> _ => assert A as FA end.
  { intros n Bn. unfold link_grads. rewrite !(map_nth' _ _ _ 0%nat) by now rewrite seq_length. rewrite seq_nth by auto. cbn [Nat.add].
    rewrite nth_opp. apply opposite_flow. apply pd_neg; apply HH. }
  specialize (F FA). destruct (flood_fill p _ _ _), (flood_fill p' _ _ _); cbn [same_outcome bind fst snd] in *; auto.
Qed.

(** * One interferogram in space *)
Lemma space_neg g cost row row' : planar g -> opposite row row' ->
  same_outcome opposite (unwrap_ifg_in_space smcf (dual_solver g) cost row) (unwrap_ifg_in_space smcf' (dual_solver g) cost row').
Proof using Hsm Hm.
  intros Hp H. unfold unwrap_ifg_in_space. rewrite (grads_residues_neg g row row' Hp H).
  destruct (compute_residues_from_gradients _ row) as [r|er]; unfold neg_ok; cbn [bind]; [|reflexivity].
  rewrite (flows_mirror0 smcf smcf' Hsm Hm). destruct (residues_to_flows smcf _ r cost None) as [k|er]; unfold neg_ok; cbn [bind]; [|reflexivity].
  destruct H as [HL H]. cbn [dual_solver s_graph].
  apply flood_neg; [congruence|apply H|]. intros n Bn. rewrite !link_grads_grad_nth by auto. rewrite nth_opp. apply opposite_flow, H.
Qed.

(** * The stack *)
Section Cube.
Variables (gs gt : graph) (Hps : planar gs) (Hpt : planar gt).
Variable e : emcf.
Hypothesis Hes : em_space e = dual_solver gs.
Hypothesis Het : em_time e = dual_solver gt.
Variables (tsched : nat -> list nat -> list nat) (ssched : list nat -> list nat) (cpu : Z).
Hypothesis Htsched : forall b l, Permutation (tsched b l) l.
Hypothesis Hssched : forall l, Permutation (ssched l) l.
Hypothesis Hlpb : (0 < links_per_batch (em_set e))%nat.
Variables (i : bool) (data data' : list (list Q)).
Hypothesis HD : opposite_rows data data'.

Lemma at_neg t v : at2 data' t v == - at2 data t v.
Proof using HD. destruct HD as [_ H]. unfold at2. apply H. Qed.

Lemma column_neg ab : opposite (link_column i (em_ifgs e) data ab) (link_column i (em_ifgs e) data' ab).
Proof using HD Hlpb data data' e i.
  split; [now rewrite !column_len|]. destruct ab as [a b]. intros n. destruct (Nat.lt_ge_cases n (length (em_ifgs e))) as [B|B].
  2:{ rewrite !nth_overflow by (rewrite column_len; lia). reflexivity. }
  unfold link_column. destruct i.
  - rewrite !(map_nth' _ _ _ 0%nat) by (rewrite seq_length; auto). apply pd_neg; apply at_neg.
  - rewrite !(map_nth' _ _ _ (0%nat, 0%nat)) by auto. apply pd_neg; apply pd_neg; apply at_neg.
Qed.

Lemma time_residues_neg ab :
  time_residues (em_time e) (link_column i (em_ifgs e) data' ab) = map Z.opp (time_residues (em_time e) (link_column i (em_ifgs e) data ab)).
Proof using HD Het Hlpb Hpt data data' e gt i.
  pose proof (column_neg ab) as U. pose proof (column_len e i data ab) as L. pose proof (column_len e i data' ab) as L'. unfold em_ifgs in *. rewrite Het in *. cbn [dual_solver s_graph] in *.
  pose proof (grads_residues_neg gt _ _ Hpt U) as R. rewrite !time_residues_eq in R by (cbn [dual_solver s_graph]; auto). unfold neg_ok in R. cbn [bind] in R. congruence.
Qed.

Lemma cols_ok_neg links : cols_ok data' links = cols_ok data links.
Proof using HD Hlpb data data' e.
  destruct HD as [L H]. unfold cols_ok. clear HD. revert data' L H. induction data as [|r d IH]; intros [|r' d'] L H; cbn [length] in L; try discriminate; [reflexivity|].
  cbn [forallb]. rewrite (IH d'); [|lia|intros t; exact (H (S t))]. pose proof (H 0%nat) as [L0 _]. cbn [nth] in L0. now rewrite L0.
Qed.

Lemma many_neg sched res cost wc : same_outcome (fun _ _ => True)
  (residues_to_flows_many smcf sched cpu (dual_solver gt) res cost None wc)
  (residues_to_flows_many smcf' sched cpu (dual_solver gt) (map (map Z.opp) res) cost None wc).
Proof using Hsm Hm.
  unfold residues_to_flows_many. cbv zeta.
  assert (forallb (fun r => (length r =? length (g_cycles (s_graph (dual_solver gt))) + 1)%nat) (map (map Z.opp) res)
    = forallb (fun r => (length r =? length (g_cycles (s_graph (dual_solver gt))) + 1)%nat) res) as ->.
  { induction res as [|r l IH]; [reflexivity|]. cbn [map forallb]. now rewrite IH, map_length. }
  destruct (negb _); [reflexivity|]. rewrite map_length.
  assert (forall ii, nth ii (map (map Z.opp) res) [] = map Z.opp (nth ii res [])) as N by (intros; change (@nil Z) with (map Z.opp []) at 1; apply map_nth).
  assert (filter (fun ii => nonzero_row (nth ii (map (map Z.opp) res) [])) (seq 0 (length res)) = filter (fun ii => nonzero_row (nth ii res [])) (seq 0 (length res))) as ->.
  { apply filter_ext. intros ii. rewrite N, !nonzero_row_spec, zero_opp. reflexivity. }
  destruct (time_workers wc cpu =? 1)%Z.
  - match goal with |- same_outcome _ (bind (map_res ?f ?l) _) (bind (map_res ?f' _) _) => pose proof (same_kind_map f f' l) as M end.
    match type of M with ?A -> _ => assert A as MA end.
    { intros ii _. rewrite N. pose proof (flows_mirror smcf smcf' Hsm Hm gt (nth ii res []) cost (Some cost)) as F. cbn [rev_or] in F. rewrite F.
      destruct (residues_to_flows smcf _ _ _ _); unfold neg_ok; cbn [bind same_outcome]; auto. }
    specialize (M MA). destruct (map_res _ _), (map_res _ _); cbn [same_outcome bind] in *; auto.
  - match goal with |- same_outcome _ (bind (map_res ?f ?l) _) (bind (map_res ?f' _) _) => pose proof (same_kind_map f f' l) as M end.
    match type of M with ?A -> _ => assert A as MA end.
    { intros ii _. rewrite N. destruct (dual_length gt) as [L L']. rewrite (solve_mirror smcf smcf' Hsm Hm) by congruence.
      destruct (solve_mcf smcf _ _ _ _ _); unfold neg_ok; cbn [bind same_outcome]; auto. }
    specialize (M MA). destruct (map_res _ _), (map_res _ _); cbn [same_outcome bind] in *; auto.
Qed.

Lemma batch_kind_neg cost sched bb g g' : same_outcome (fun _ _ => True) (time_batch smcf sched cpu e cost i data bb g) (time_batch smcf' sched cpu e cost i data' bb g').
Proof using HD Het Hlpb Hm Hpt Hsm cpu data data' e gt i smcf smcf'.
  unfold time_batch. destruct (_ =? 0)%nat; [exact I|]. set (inds := firstn _ _).
  rewrite cols_ok_neg. destruct (negb (cols_ok data inds)); [reflexivity|].
  assert (map (time_residues (em_time e)) (map (link_column i (em_ifgs e) data') inds) = map (map Z.opp) (map (time_residues (em_time e)) (map (link_column i (em_ifgs e) data) inds))) as ->.
  { rewrite !map_map. apply map_ext. intros ab. apply time_residues_neg. }
  rewrite Het. match goal with |- context [residues_to_flows_many smcf _ _ _ ?r ?c None ?w] => pose proof (many_neg sched r c w) as K end.
  destruct (residues_to_flows_many smcf _ _ _ _ _ _ _), (residues_to_flows_many smcf' _ _ _ _ _ _ _); cbn [same_outcome bind] in *; auto.
Qed.

Lemma time_kind_neg : same_outcome (fun _ _ => True) (unwrap_gradients_in_time smcf tsched cpu e i data) (unwrap_gradients_in_time smcf' tsched cpu e i data').
Proof using HD Het Hlpb Hm Hpt Hsm cpu data data' e gt i smcf smcf' tsched.
  unfold unwrap_gradients_in_time. destruct (pick_cost _ _ _ _) as [cost|er]; cbn [bind]; [|reflexivity].
  assert (forall l g g', same_outcome (fun _ _ => True) (time_batches smcf tsched cpu e cost i data l g) (time_batches smcf' tsched cpu e cost i data' l g')) as A; [|apply A].
  induction l as [|bb l IH]; intros g g'; cbn [time_batches]; [exact I|].
  pose proof (batch_kind_neg cost (tsched bb) bb g g') as K.
  destruct (time_batch smcf _ _ _ _ _ _ _ _), (time_batch smcf' _ _ _ _ _ _ _ _); cbn [bind]; [apply IH|contradiction|contradiction|exact K].
Qed.

Lemma time_neg G G' : unwrap_gradients_in_time smcf tsched cpu e i data = Ok G -> unwrap_gradients_in_time smcf' tsched cpu e i data' = Ok G' ->
  length G = length (em_links e) /\ length G' = length (em_links e) /\
  forall l n, (l < length (em_links e))%nat -> (n < length (em_ifgs e))%nat -> nth n (nth l G' []) 0 == - nth n (nth l G []) 0.
Proof using HD Het Hpt Htsched Hlpb Hsm Hm.
  intros H H'.
  destruct (pick_cost (t_cost_type (em_set e)) (length (em_ifgs e)) (em_tdist e) (em_tcent e)) as [cost|er] eqn:Ec.
  2:{ unfold unwrap_gradients_in_time in H. rewrite Ec in H. discriminate. }
  destruct (in_time_sound smcf tsched cpu e i data cost Htsched Ec Hlpb G H) as [L K].
  destruct (in_time_sound smcf' tsched cpu e i data' cost Htsched Ec Hlpb G' H') as [L' K'].
  split; [exact L|]. split; [exact L'|]. intros l n Bl Bn. specialize (K l Bl). specialize (K' l Bl). unfold link_out in K, K'. cbv zeta in K, K'.
  set (ab := nth l (em_links e) (0, 0)%nat) in *.
  rewrite time_residues_neg, Het, (flows_mirror0 smcf smcf' Hsm Hm) in K'. rewrite Het in K.
  destruct (residues_to_flows smcf _ _ cost None) as [k|] eqn:Ek; [|discriminate]. unfold neg_ok in K'. cbn [bind] in K, K'. apply ok_inj in K. apply ok_inj in K'.
  rewrite <- K, <- K'. pose proof (column_neg ab) as [_ U]. specialize (U n).
  assert (length k = length (em_ifgs e)) as Lk by (unfold em_ifgs; rewrite Het; cbn [dual_solver s_graph]; eapply flows_len; eauto).
  rewrite !(map_nth' _ _ _ (0, 0%Z)) by (rewrite combine_length, column_len, ?map_length; lia).
  rewrite !combine_nth by (rewrite column_len, ?map_length; lia). cbn [fst snd]. rewrite nth_opp. now apply opposite_flow.
Qed.

Theorem cube_neg c c' : cu_data c = data -> cu_data c' = data' -> classify e c = Ok i -> classify e c' = Ok i ->
  same_outcome opposite_rows
    (unwrap_cube smcf tsched ssched cpu e c) (unwrap_cube smcf' tsched ssched cpu e c').
Proof using HD Het Hpt Htsched Hlpb Hes Hps Hssched Hsm Hm.
  intros Ed Ed' K K'. unfold unwrap_cube. rewrite K, K', Ed, Ed'. cbn [bind]. pose proof time_kind_neg as T.
  destruct (unwrap_gradients_in_time smcf tsched cpu e i data) as [G|er] eqn:EG, (unwrap_gradients_in_time smcf' tsched cpu e i data') as [G'|er'] eqn:EG';
    cbn [same_outcome bind] in *; auto; try contradiction.
  destruct (time_neg G G' EG EG') as (LG & LG' & KG).
  assert (forall cost n, (n < length (em_ifgs e))%nat ->
    same_outcome opposite (unwrap_ifg_in_space smcf (em_space e) cost (map (fun col => nth n col 0) G))
      (unwrap_ifg_in_space smcf' (em_space e) cost (map (fun col => nth n col 0) G'))) as SP.
  { intros cost n Bn. rewrite Hes. apply space_neg; auto. split; [rewrite !map_length; congruence|]. intros l.
    destruct (Nat.lt_ge_cases l (length (em_links e))) as [B|B].
    - rewrite !(map_nth' _ _ _ []) by lia. now apply KG.
    - rewrite !nth_overflow by (rewrite map_length; lia). reflexivity. }
  destruct (pick_cost (s_cost_type (em_set e)) (length (em_links e)) (em_sdist e) (em_scent e)) as [cost|er] eqn:Ec.
  2:{ unfold unwrap_gradients_in_space. rewrite Ec. reflexivity. }
  destruct (Z.leb_spec (space_workers (s_worker_count (em_set e)) cpu) 0) as [Lw|Lw].
  { unfold unwrap_gradients_in_space. rewrite Ec. cbn [bind]. destruct (Z.leb_spec (space_workers (s_worker_count (em_set e)) cpu) 0); [reflexivity|lia]. }
  assert (same_outcome (fun _ _ => True) (unwrap_gradients_in_space smcf ssched cpu e G) (unwrap_gradients_in_space smcf' ssched cpu e G')) as Kd.
  { unfold unwrap_gradients_in_space. rewrite Ec. cbn [bind]. destruct (Z.leb_spec (space_workers (s_worker_count (em_set e)) cpu) 0); [reflexivity|]. cbv zeta.
    match goal with |- same_outcome _ (bind (map_res ?f ?l) _) (bind (map_res ?f' _) _) => pose proof (same_kind_map f f' l) as M end.
    match type of M with ?A -> _ => assert A as MA end.
    { intros n In_. assert (n < length (em_ifgs e))%nat as Bn by (apply (Permutation_in _ (Hssched _)), in_seq in In_; lia).
      specialize (SP cost n Bn). destruct (unwrap_ifg_in_space smcf _ _ (map _ G)), (unwrap_ifg_in_space smcf' _ _ (map _ G')); cbn [same_outcome bind] in *; auto. }
    specialize (M MA). destruct (map_res _ _), (map_res _ _); cbn [same_outcome bind] in *; auto. }
  destruct (unwrap_gradients_in_space smcf ssched cpu e G) as [U|x] eqn:EU, (unwrap_gradients_in_space smcf' ssched cpu e G') as [U'|x'] eqn:EU';
    cbn [same_outcome] in *; auto; try contradiction.
  apply (in_space_ok smcf ssched cpu e G cost Hssched Ec ltac:(lia)) in EU as [LU HU].
  apply (in_space_ok smcf' ssched cpu e G' cost Hssched Ec ltac:(lia)) in EU' as [LU' HU'].
  split; [congruence|]. intros n. destruct (Nat.lt_ge_cases n (length (em_ifgs e))) as [Bn|Bn].
  - specialize (SP cost n Bn). rewrite (HU n Bn), (HU' n Bn) in SP. exact SP.
  - rewrite !nth_overflow by lia. split; [reflexivity|]. intros v. destruct v; reflexivity.
Qed.
End Cube.
End Solvers.
