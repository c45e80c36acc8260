(** Network flows and integer corrections. *)
From Verif Require Import Base BaseLemmas GraphModel GraphSpec GraphProofs McfModel McfSpec
  PhaseProofs DualProofs ResidueProofs.
From Coq Require Import ZifyBool.
Set Default Goal Selector "!".
Local Open Scope Z_scope.

(** * Sums by index *)
Lemma combine_seq {A B} (l : list A) (l' : list B) d d' : length l = length l' ->
  combine l l' = map (fun i => (nth i l d, nth i l' d')) (seq 0 (length l)).
Proof.
  intros H. rewrite (list_eq_map_seq (combine l l') (d, d')). rewrite combine_length, <- H, Nat.min_id.
  apply map_ext_in. intros i Hi. apply combine_nth; auto.
Qed.

Lemma sumZ_combine {A B} (F : A * B -> Z) l l' d d' : length l = length l' ->
  sumZ (map F (combine l l')) = sumZ (map (fun i => F (nth i l d, nth i l' d')) (seq 0 (length l))).
Proof. intros H. rewrite (combine_seq l l' d d') by auto. now rewrite map_map. Qed.

Lemma sumZ_list_seq {A} (F : A -> Z) l d :
  sumZ (map F l) = sumZ (map (fun i => F (nth i l d)) (seq 0 (length l))).
Proof. rewrite (list_eq_map_seq l d) at 1. now rewrite map_map. Qed.

Lemma sumZ_seq_double (F : nat -> Z) n :
  sumZ (map F (seq 0 (n + n))) = sumZ (map (fun i => F i + F (n + i)%nat) (seq 0 n)).
Proof.
  rewrite seq_app, map_app, sumZ_app, sumZ_map_add. f_equal. cbn [Nat.add].
  rewrite <- (Nat.add_0_r n) at 1. clear. revert F. 
  intros F. rewrite <- (map_map (fun i => (n + i)%nat) F). f_equal. f_equal.
  generalize 0%nat as k. generalize n at 2 4 as m. induction m as [|m IH]; intros k; [reflexivity|].
  cbn [seq map]. f_equal. rewrite <- IH. f_equal. lia.
Qed.

(** * Circulation in integers *)
Lemma circ_inject (k : nat -> nat -> Z) c :
  (circQ (fun a b => inject_Z (k a b)) c == inject_Z (circZ k c))%Q.
Proof.
  unfold circQ, circZ. rewrite <- sumQ_inject, map_map. apply sumQ_map_ext. intros [a b] _.
  cbn [fst snd]. unfold alongQ, alongZ. destruct (a <? b)%nat; [reflexivity|]. now rewrite inject_Z_opp.
Qed.

(** Coefficient of link i in the balance of dual node v. *)
Definition coef (s : solver) (v i : nat) : Z :=
  (if (fst (nth i (s_dual s) (0, 0)%nat) =? v)%nat then fst (nth i (s_dir s) (0, 0)) else 0)
  + (if (snd (nth i (s_dual s) (0, 0)%nat) =? v)%nat then snd (nth i (s_dir s) (0, 0)) else 0).

Lemma dual_nth g i : (i < length (g_links g))%nat ->
  let l := nth i (g_links g) (0, 0)%nat in
  nth i (s_dual (dual_solver g)) (0, 0)%nat = fst (use_row (uses g (fst l) (snd l))) /\
  nth i (s_dir (dual_solver g)) (0, 0) = snd (use_row (uses g (fst l) (snd l))).
Proof.
  intros Hi. cbn [dual_solver s_dual s_dir]. cbv zeta.
  now rewrite !(map_nth' _ _ i (0, 0)%nat) by auto.
Qed.

Lemma dual_length g : length (s_dual (dual_solver g)) = length (g_links g)
  /\ length (s_dir (dual_solver g)) = length (g_links g).
Proof. cbn. now rewrite !map_length. Qed.

Lemma circZ_coef g k n : planar g -> length k = length (g_links g) -> (n < length (g_cycles g))%nat ->
  circZ (link_val 0 (g_links g) k) (nth n (g_cycles g) [])
  = sumZ (map (fun i => coef (dual_solver g) (n + 1) i * nth i k 0) (seq 0 (length (g_links g)))).
Proof.
  intros Hp HL Hn. destruct (planar_simple g Hp) as [Hnd Hlt].
  assert (circZ (link_val 0 (g_links g) k) (nth n (g_cycles g) [])
    = sumZ (map (fun l => net (sides (nth n (g_cycles g) [])) (fst l) (snd l)
                          * link_val 0 (g_links g) k (fst l) (snd l)) (g_links g))) as ->.
  { apply inject_Z_eq_iff. rewrite <- circ_inject, <- sumQ_inject, map_map.
    rewrite circQ_links by first [now apply planar_simple | solve [auto] | intros; now apply pl_side].
    apply sumQ_map_ext. intros l _. now rewrite inject_Z_mul. }
  rewrite sumZ_list_seq with (d := (0, 0)%nat). apply sumZ_map_ext.
  intros i Hi. apply in_seq in Hi. destruct (nth i (g_links g) (0, 0)%nat) as [a b] eqn:E. cbn [fst snd].
  rewrite (link_val_nth 0 (g_links g) k i a b) by (auto; lia). f_equal.
  unfold coef. destruct (dual_nth g i ltac:(lia)) as [-> ->]. rewrite E. cbn [fst snd].
  rewrite <- (uses_net 1 (g_cycles g) a b n) by auto. fold (uses g a b).
  assert (In (a, b) (g_links g)) as Hl by (rewrite <- E; apply nth_In; lia).
  destruct (planar_uses_ok g a b Hp Hl) as [c d Hd Hc|c c' d Hd Hc Hc']; unfold use_row; cbn [nth fst snd filter].
  - replace (0 =? n + 1)%nat with false by lia.
    destruct (c =? n + 1)%nat; cbn [map snd sumZ fold_right]; lia.
  - destruct (c =? n + 1)%nat, (c' =? n + 1)%nat; cbn [map snd sumZ fold_right]; lia.
Qed.

(** * The arcs *)
Section Arcs.
Context (g : graph) (cost revcost : list Z).
Context (Hp : planar g) (HC : length cost = length (g_links g)) (HR : length revcost = length (g_links g)).
Let n := length (g_links g).
Let s := dual_solver g.
Let arcs := mcf_arcs (s_dual s) (map fst (s_dir s)) cost revcost.
Let d0 i := fst (nth i (s_dir s) (0, 0)).
Let du i := fst (nth i (s_dual s) (0, 0)%nat).
Let dv i := snd (nth i (s_dual s) (0, 0)%nat).

Lemma d0_unit i : (i < n)%nat -> d0 i = 1 \/ d0 i = -1.
Proof.
  intros Hi. unfold d0, s. destruct (dual_nth g i Hi) as [_ ->].
  assert (In (nth i (g_links g) (0, 0)%nat) (g_links g)) as Hl by (apply nth_In; auto).
  destruct (nth i (g_links g) (0, 0)%nat) as [a b]. cbn [fst snd].
  destruct (planar_uses_ok g a b Hp Hl) as [c d Hd Hc|c c' d Hd Hc Hc']; unfold use_row; cbn; auto.
Qed.

Lemma d1_opp i : (i < n)%nat -> (0 < dv i)%nat -> snd (nth i (s_dir s) (0, 0)) = - d0 i.
Proof.
  intros Hi. unfold d0, dv, s. destruct (dual_nth g i Hi) as [-> ->].
  assert (In (nth i (g_links g) (0, 0)%nat) (g_links g)) as Hl by (apply nth_In; auto).
  destruct (nth i (g_links g) (0, 0)%nat) as [a b]. cbn [fst snd].
  destruct (planar_uses_ok g a b Hp Hl) as [c d Hd Hc|c c' d Hd Hc Hc']; unfold use_row; cbn; auto. lia.
Qed.

Lemma dual_bound i : (i < n)%nat -> (du i <= length (g_cycles g) /\ dv i <= length (g_cycles g))%nat.
Proof.
  intros Hi. unfold du, dv, s. destruct (dual_nth g i Hi) as [-> _].
  assert (In (nth i (g_links g) (0, 0)%nat) (g_links g)) as Hl by (apply nth_In; auto).
  destruct (nth i (g_links g) (0, 0)%nat) as [a b]. cbn [fst snd].
  assert (forall u, In u (uses g a b) -> (fst u <= length (g_cycles g))%nat) as K.
  { intros [c d] H. apply uses_In in H as (m & Hm & -> & _); [cbn; lia|]. apply pl_lt in Hl; auto; lia. }
  destruct (planar_uses_ok g a b Hp Hl) as [c d Hd Hc|c c' d Hd Hc Hc']; unfold use_row; cbn.
  - split; [apply (K (c, d)); now left|lia].
  - split; [apply (K (c, d)); now left|apply (K (c', - d)); right; now left].
Qed.

Lemma arcs_length : length arcs = (n + n)%nat.
Proof.
  destruct (dual_length g) as [L1 L2]. unfold arcs, mcf_arcs, s, n. rewrite app_length, !map_length, !combine_length, !map_length.
  rewrite L1, L2, HC, HR. lia.
Qed.

Let row i : (nat * nat) * (Z * (Z * Z)) :=
  (nth i (s_dual s) (0, 0)%nat, (d0 i, (nth i cost 0, nth i revcost 0))).

Lemma rows_eq : combine (s_dual s) (combine (map fst (s_dir s)) (combine cost revcost)) = map row (seq 0 n).
Proof.
  destruct (dual_length g) as [L1 L2]. fold s in L1, L2.
  rewrite (combine_seq cost revcost 0 0) by lia. rewrite HC.
  rewrite (combine_seq (map fst (s_dir s)) _ 0 (0, 0)) by (rewrite !map_length, seq_length; lia).
  rewrite map_length, L2.
  rewrite (combine_seq (s_dual s) _ (0, 0)%nat (0, (0, 0))) by (rewrite !map_length, seq_length; lia).
  rewrite L1. apply map_ext_in. intros i Hi. apply in_seq in Hi. unfold row, d0. f_equal.
  rewrite (map_nth' _ _ i 0%nat) by (rewrite seq_length; lia). rewrite seq_nth by lia. cbn [Nat.add].
  f_equal; [apply (map_nth' fst (s_dir s) i (0, 0)); lia|].
  rewrite (map_nth' _ _ i 0%nat) by (rewrite seq_length; lia). now rewrite seq_nth by lia.
Qed.

Lemma arcs_nth_fwd i : (i < n)%nat -> nth i arcs (Arc 0 0 0 0) =
  Arc (du i) (dv i) int32_max (sel (nth i cost 0) (d0 i) (-1) + sel (nth i revcost 0) (d0 i) 1).
Proof.
  intros Hi. unfold arcs, mcf_arcs. rewrite rows_eq, app_nth1 by (rewrite !map_length, seq_length; auto).
  rewrite map_map. rewrite (map_nth' _ _ i 0%nat) by (rewrite seq_length; auto).
  rewrite seq_nth by auto. unfold row, du, dv. cbn [Nat.add]. destruct (nth i (s_dual s) _); reflexivity.
Qed.

Lemma arcs_nth_rev i : (i < n)%nat -> nth (n + i) arcs (Arc 0 0 0 0) =
  Arc (dv i) (du i) int32_max (sel (nth i cost 0) (d0 i) 1 + sel (nth i revcost 0) (d0 i) (-1)).
Proof.
  intros Hi. unfold arcs, mcf_arcs. rewrite rows_eq, app_nth2 by (rewrite !map_length, seq_length; lia).
  rewrite !map_length, seq_length, Nat.add_comm, Nat.add_sub.
  rewrite map_map. rewrite (map_nth' _ _ i 0%nat) by (rewrite seq_length; auto).
  rewrite seq_nth by auto. unfold row, du, dv. cbn [Nat.add]. destruct (nth i (s_dual s) _); reflexivity.
Qed.

Context (f : list Z) (Hf : length f = length arcs).
Let F i := nth i f 0.
Let R i := nth (n + i) f 0.

Lemma node_balance v :
  node_sum a_from arcs f v - node_sum a_to arcs f v
  = sumZ (map (fun i => ((if (du i =? v)%nat then 1 else 0) - (if (dv i =? v)%nat then 1 else 0)) * (F i - R i)) (seq 0 n)).
Proof.
  unfold node_sum. rewrite !(sumZ_combine _ arcs f (Arc 0 0 0 0) 0) by auto. rewrite arcs_length, !sumZ_seq_double.
  match goal with |- sumZ (map ?A _) - sumZ (map ?B _) = _ =>
    replace (sumZ (map A (seq 0 n)) - sumZ (map B (seq 0 n))) with (sumZ (map (fun i => A i + - B i) (seq 0 n))) end.
  2:{ rewrite sumZ_map_add, sumZ_map_opp. lia. }
  apply sumZ_map_ext. intros i Hi. apply in_seq in Hi. cbn [fst snd].
  rewrite arcs_nth_fwd, arcs_nth_rev by lia. cbn [a_from a_to]. fold (F i) (R i).
  destruct (du i =? v)%nat, (dv i =? v)%nat; lia.
Qed.

Lemma total_cost :
  flow_cost arcs f = sumZ (map (fun i =>
     if d0 i =? 1 then nth i cost 0 * R i + nth i revcost 0 * F i
     else nth i cost 0 * F i + nth i revcost 0 * R i) (seq 0 n)).
Proof.
  unfold flow_cost. rewrite (sumZ_combine _ arcs f (Arc 0 0 0 0) 0) by auto. rewrite arcs_length, sumZ_seq_double.
  apply sumZ_map_ext. intros i Hi. apply in_seq in Hi. cbn [fst snd].
  rewrite arcs_nth_fwd, arcs_nth_rev by lia. cbn [a_cost]. fold (F i) (R i).
  destruct (d0_unit i) as [E|E]; [lia| |]; rewrite E; cbn; lia.
Qed.

(** Balance of a cycle node in terms of the signed corrections. *)
Lemma node_balance_coef v k : (0 < v)%nat ->
  (forall i, (i < n)%nat -> nth i k 0 = d0 i * (R i - F i)) ->
  node_sum a_from arcs f v - node_sum a_to arcs f v
  = - sumZ (map (fun i => coef s v i * nth i k 0) (seq 0 n)).
Proof.
  intros Hv Hk. rewrite node_balance, <- sumZ_map_opp. apply sumZ_map_ext. intros i Hi. apply in_seq in Hi.
  rewrite Hk by lia. unfold coef. fold (d0 i) (du i) (dv i).
  destruct (Nat.eqb_spec (dv i) v) as [E|E].
  - rewrite d1_opp by lia. destruct (d0_unit i) as [E'|E']; [lia| |]; rewrite E'; destruct (du i =? v)%nat; lia.
  - destruct (d0_unit i) as [E'|E']; [lia| |]; rewrite E'; destruct (du i =? v)%nat; lia.
Qed.

Lemma balance_total :
  sumZ (map (fun v => node_sum a_from arcs f v - node_sum a_to arcs f v) (seq 0 (S (length (g_cycles g))))) = 0.
Proof.
  rewrite (sumZ_map_ext _ (fun v => sumZ (map (fun i =>
    ((if (du i =? v)%nat then 1 else 0) - (if (dv i =? v)%nat then 1 else 0)) * (F i - R i)) (seq 0 n))))
    by (intros; apply node_balance).
  rewrite sumZ_swap. apply sumZ_map_zero. intros i Hi. apply in_seq in Hi.
  rewrite (sumZ_map_ext _ (fun v => (F i - R i) * (if (du i =? v)%nat then 1 else 0)
       + (F i - R i) * - (if (dv i =? v)%nat then 1 else 0))) by (intros; lia).
  rewrite sumZ_map_add, !sumZ_map_mul, sumZ_map_opp.
  assert (forall x m, (x < m)%nat -> sumZ (map (fun v => if (x =? v)%nat then 1 else 0) (seq 0 m)) = 1) as One.
  { clear. intros x m H. replace m with (x + (1 + (m - x - 1)))%nat by lia.
    rewrite !seq_app, !map_app, !sumZ_app. cbn [seq map Nat.add].
    rewrite Nat.eqb_refl. rewrite !sumZ_map_zero; [cbn; lia| |];
      intros v Hv; apply in_seq in Hv; destruct (Nat.eqb_spec x v); lia. }
  pose proof (dual_bound i ltac:(lia)). rewrite !One by lia. lia.
Qed.

End Arcs.

(** * From an answer of the solver to corrections *)
Definition answer_flows (g : graph) (f : list Z) : list Z :=
  let n := length (g_links g) in
  map (fun ii => nth ii (map fst (s_dir (dual_solver g))) 0 * (nth (ii + n) f 0 - nth ii f 0)) (seq 0 n).

Lemma answer_nth g f i : (i < length (g_links g))%nat ->
  nth i (answer_flows g f) 0
  = fst (nth i (s_dir (dual_solver g)) (0, 0)) * (nth (length (g_links g) + i) f 0 - nth i f 0).
Proof.
  intros Hi. unfold answer_flows. cbv zeta. rewrite (map_nth' _ _ i 0%nat) by (rewrite seq_length; auto).
  rewrite seq_nth by auto. rewrite Nat.add_0_l, (Nat.add_comm i). f_equal.
  rewrite (map_nth' fst _ i (0, 0)); auto. cbn. now rewrite map_length.
Qed.
Lemma answer_length g f : length (answer_flows g f) = length (g_links g).
Proof. unfold answer_flows. cbv zeta. now rewrite map_length, seq_length. Qed.

Definition the_arcs (g : graph) (cost revcost : list Z) : list arc :=
  mcf_arcs (s_dual (dual_solver g)) (map fst (s_dir (dual_solver g))) cost revcost.

Lemma answer_cancels g cost revcost residues f : planar g ->
  length cost = length (g_links g) -> length revcost = length (g_links g) ->
  length residues = S (length (g_cycles g)) ->
  feasible (the_arcs g cost revcost) residues f ->
  cancels g residues (answer_flows g f).
Proof.
  intros Hp HC HR Hr (HL & Hcap & Hbal). split; [apply answer_length|]. intros c Hc.
  rewrite circZ_coef by (auto; apply answer_length).
  specialize (Hbal (c + 1)%nat ltac:(lia)).
  unfold the_arcs in Hbal.
  rewrite (node_balance_coef g cost revcost Hp HC HR f HL (c + 1) (answer_flows g f)) in Hbal; [lia|lia|].
  intros i Hi. now apply answer_nth.
Qed.

Lemma answer_int32 g cost revcost residues f : planar g ->
  length cost = length (g_links g) -> length revcost = length (g_links g) ->
  feasible (the_arcs g cost revcost) residues f ->
  fits_int32 (answer_flows g f).
Proof.
  intros Hp HC HR (HL & Hcap & Hbal) x Hx. apply (In_nth _ _ 0) in Hx as (i & Hi & <-).
  rewrite answer_length in Hi. rewrite answer_nth by auto.
  pose proof (arcs_length g cost revcost HC HR) as LA. fold (the_arcs g cost revcost) in LA.
  pose proof (Hcap i ltac:(lia)) as H1. pose proof (Hcap (length (g_links g) + i)%nat ltac:(lia)) as H2.
  unfold the_arcs in H1, H2. rewrite arcs_nth_fwd in H1 by auto. rewrite arcs_nth_rev in H2 by auto.
  cbn [a_cap] in *. destruct (d0_unit g Hp i Hi) as [E|E]; rewrite E; lia.
Qed.

(** * From corrections to a feasible arc flow *)
Definition arc_flow (g : graph) (k : list Z) : list Z :=
  let d i := fst (nth i (s_dir (dual_solver g)) (0, 0)) in
  map (fun i => Z.max 0 (- (d i * nth i k 0))) (seq 0 (length (g_links g)))
  ++ map (fun i => Z.max 0 (d i * nth i k 0)) (seq 0 (length (g_links g))).

Lemma arc_flow_fwd g k i : (i < length (g_links g))%nat ->
  nth i (arc_flow g k) 0 = Z.max 0 (- (fst (nth i (s_dir (dual_solver g)) (0, 0)) * nth i k 0)).
Proof.
  intros Hi. unfold arc_flow. rewrite app_nth1 by (rewrite map_length, seq_length; auto).
  rewrite (map_nth' _ _ i 0%nat) by (rewrite seq_length; auto). now rewrite seq_nth by auto.
Qed.
Lemma arc_flow_rev g k i : (i < length (g_links g))%nat ->
  nth (length (g_links g) + i) (arc_flow g k) 0 = Z.max 0 (fst (nth i (s_dir (dual_solver g)) (0, 0)) * nth i k 0).
Proof.
  intros Hi. unfold arc_flow. rewrite app_nth2 by (rewrite map_length, seq_length; lia).
  rewrite map_length, seq_length, Nat.add_comm, Nat.add_sub.
  rewrite (map_nth' _ _ i 0%nat) by (rewrite seq_length; auto). now rewrite seq_nth by auto.
Qed.
Lemma arc_flow_length g k : length (arc_flow g k) = (length (g_links g) + length (g_links g))%nat.
Proof. unfold arc_flow. now rewrite app_length, !map_length, !seq_length. Qed.

Lemma arc_flow_feasible g cost revcost residues k : planar g ->
  length cost = length (g_links g) -> length revcost = length (g_links g) ->
  length residues = S (length (g_cycles g)) -> sumZ residues = 0 ->
  cancels g residues k -> fits_int32 k ->
  feasible (the_arcs g cost revcost) residues (arc_flow g k).
Proof.
  intros Hp HC HR Hr Hs [HL Hk] Hfit.
  pose proof (arcs_length g cost revcost HC HR) as LA. fold (the_arcs g cost revcost) in LA.
  assert (length (arc_flow g k) = length (the_arcs g cost revcost)) as HLf by (rewrite arc_flow_length, LA; auto).
  split; [auto|]. split.
  { intros i Hi. rewrite LA in Hi. destruct (Nat.lt_ge_cases i (length (g_links g))) as [L|L].
    - rewrite arc_flow_fwd by auto. unfold the_arcs. rewrite arcs_nth_fwd by auto. cbn [a_cap].
      assert (In (nth i k 0) k) as Hin by (apply nth_In; lia). apply Hfit in Hin.
      destruct (d0_unit g Hp i L) as [E|E]; rewrite E; unfold int32_max in *; lia.
    - replace i with (length (g_links g) + (i - length (g_links g)))%nat by lia.
      remember (i - length (g_links g))%nat as j. assert (j < length (g_links g))%nat as Hj by lia.
      rewrite arc_flow_rev by auto. unfold the_arcs. rewrite arcs_nth_rev by auto. cbn [a_cap].
      assert (In (nth j k 0) k) as Hin by (apply nth_In; lia). apply Hfit in Hin.
      destruct (d0_unit g Hp j Hj) as [E|E]; rewrite E; unfold int32_max in *; lia. }
  assert (forall v, (1 <= v < length residues)%nat ->
     node_sum a_from (the_arcs g cost revcost) (arc_flow g k) v
     - node_sum a_to (the_arcs g cost revcost) (arc_flow g k) v = nth v residues 0) as Hpos.
  { intros v Hv. unfold the_arcs.
    rewrite (node_balance_coef g cost revcost Hp HC HR (arc_flow g k) HLf v k); [|lia|].
    - specialize (Hk (v - 1)%nat ltac:(lia)). rewrite circZ_coef in Hk by (auto; lia).
      replace (v - 1 + 1)%nat with v in Hk by lia. lia.
    - intros i Hi. rewrite arc_flow_rev, (arc_flow_fwd g k i) by auto.
      destruct (d0_unit g Hp i Hi) as [E|E]; rewrite E; lia. }
  intros v Hv. destruct v as [|v]; [|apply Hpos; lia].
  pose proof (balance_total g cost revcost Hp HC HR (arc_flow g k) HLf) as Htot.
  fold (the_arcs g cost revcost) in Htot. cbn [seq map] in Htot. rewrite sumZ_cons in Htot.
  destruct residues as [|r0 rs]; [cbn in Hr; lia|]. cbn [nth]. rewrite sumZ_cons in Hs.
  assert (sumZ (map (fun v => node_sum a_from (the_arcs g cost revcost) (arc_flow g k) v
     - node_sum a_to (the_arcs g cost revcost) (arc_flow g k) v) (seq 1 (length (g_cycles g)))) = sumZ rs); [|lia].
  rewrite (list_eq_map_seq rs 0). cbn [length] in Hr. injection Hr as Hr. rewrite <- Hr in *.
  rewrite <- seq_shift, map_map. apply sumZ_map_ext. intros i Hi. apply in_seq in Hi.
  rewrite Hpos by (cbn; lia). reflexivity.
Qed.

Lemma price_seq cost revcost k : length revcost = length cost -> length k = length cost ->
  price cost revcost k = sumZ (map (fun i => nth i cost 0 * Z.max (nth i k 0) 0
      + nth i revcost 0 * Z.max (- nth i k 0) 0) (seq 0 (length cost))).
Proof.
  intros H1 H2. unfold price. rewrite (combine_seq revcost k 0 0) by lia.
  rewrite (sumZ_combine _ cost _ 0 (0, 0)) by (rewrite map_length, seq_length; lia).
  apply sumZ_map_ext. intros i Hi. apply in_seq in Hi. rewrite (map_nth' _ _ i 0%nat) by (rewrite seq_length; lia).
  now rewrite seq_nth by lia.
Qed.

Lemma arc_flow_cost g cost revcost k : planar g ->
  length cost = length (g_links g) -> length revcost = length (g_links g) -> length k = length (g_links g) ->
  flow_cost (the_arcs g cost revcost) (arc_flow g k) = price cost revcost k.
Proof.
  intros Hp HC HR HK. rewrite price_seq by lia. unfold the_arcs.
  rewrite (total_cost g cost revcost Hp HC HR (arc_flow g k)).
  2:{ rewrite arc_flow_length. symmetry. apply arcs_length; auto. }
  rewrite HC. apply sumZ_map_ext. intros i Hi. apply in_seq in Hi.
  rewrite arc_flow_rev, (arc_flow_fwd g k i) by lia.
  destruct (d0_unit g Hp i ltac:(lia)) as [E|E]; rewrite E.
  - replace (1 =? 1) with true by lia. rewrite !Z.mul_1_l, !(Z.max_comm 0). lia.
  - replace (-1 =? 1) with false by lia.
    replace (- (-1 * nth i k 0)) with (nth i k 0) by lia. replace (-1 * nth i k 0) with (- nth i k 0) by lia.
    rewrite !(Z.max_comm 0). lia.
Qed.

Lemma answer_price g cost revcost residues f : planar g ->
  length cost = length (g_links g) -> length revcost = length (g_links g) ->
  (forall c, In c cost -> 0 <= c) -> (forall c, In c revcost -> 0 <= c) ->
  feasible (the_arcs g cost revcost) residues f ->
  price cost revcost (answer_flows g f) <= flow_cost (the_arcs g cost revcost) f.
Proof.
  intros Hp HC HR Pc Pr (HL & Hcap & _). rewrite price_seq by (rewrite ?answer_length; lia).
  pose proof (arcs_length g cost revcost HC HR) as LA. fold (the_arcs g cost revcost) in LA.
  unfold the_arcs. rewrite (total_cost g cost revcost Hp HC HR f) by auto. rewrite HC.
  apply sumZ_map_le. intros i Hi. apply in_seq in Hi. rewrite answer_nth by lia.
  pose proof (Hcap i ltac:(lia)) as [H1 _]. pose proof (Hcap (length (g_links g) + i)%nat ltac:(lia)) as [H2 _].
  assert (0 <= nth i cost 0) by (apply Pc, nth_In; lia).
  assert (0 <= nth i revcost 0) by (apply Pr, nth_In; lia).
  set (x := nth i f 0) in *. set (y := nth (length (g_links g) + i) f 0) in *.
  destruct (d0_unit g Hp i ltac:(lia)) as [E|E]; rewrite E.
  - replace (1 =? 1) with true by lia. rewrite Z.mul_1_l. apply Z.add_le_mono; apply Z.mul_le_mono_nonneg_l; lia.
  - replace (-1 =? 1) with false by lia. apply Z.add_le_mono; apply Z.mul_le_mono_nonneg_l; lia.
Qed.

(** * residues_to_flows *)
Lemma solve_mcf_ok smcf g residues cost revcost k : planar g ->
  solve_mcf smcf (s_dual (dual_solver g)) (s_dir (dual_solver g)) residues cost revcost = Ok k ->
  sumZ residues = 0 /\ length cost = length (g_links g) /\ length revcost = length (g_links g) /\
  exists f, smcf (the_arcs g cost revcost) residues = Some f /\ k = answer_flows g f.
Proof.
  intros Hp. unfold solve_mcf. cbv zeta. destruct (dual_length g) as [L1 L2]. rewrite L1.
  destruct (Z.eqb_spec (sumZ residues) 0) as [E|E]; cbn [negb]; [|discriminate].
  destruct (Nat.eqb_spec (length cost) (length (g_links g))); cbn [andb negb]; [|discriminate].
  destruct (Nat.eqb_spec (length revcost) (length (g_links g))); cbn [andb negb]; [|discriminate].
  fold (the_arcs g cost revcost). destruct (smcf (the_arcs g cost revcost) residues) as [f|]; [|discriminate].
  intros H. injection H as <-. repeat split; auto. exists f. split; auto.
Qed.

Lemma nth_all_zero l n : (forall x, In x l -> x = 0) -> nth n l 0 = 0.
Proof. intros H. destruct (nth_in_or_default n l 0) as [Hi| ->]; auto. Qed.

Lemma link_val_zero links m a b : link_val 0 links (repeat 0 m) a b = 0.
Proof.
  revert m. induction links as [|[x y] t IH]; intros [|m]; cbn; auto. destruct (_ && _); auto.
Qed.

Lemma zero_cancels g residues : planar g -> (forall x, In x residues -> x = 0) ->
  cancels g residues (repeat 0 (length (g_links g))).
Proof.
  intros Hp Hz. split; [apply repeat_length|]. intros c Hc. rewrite nth_all_zero by auto.
  unfold circZ. apply sumZ_map_zero. intros [a b] _. cbn [fst snd]. unfold alongZ. rewrite !link_val_zero.
  destruct (a <? b)%nat; reflexivity.
Qed.

Lemma forallb_zero l : forallb (fun r => r =? 0) l = true <-> forall x, In x l -> x = 0.
Proof. rewrite forallb_forall. split; intros H x Hx; apply H in Hx; lia. Qed.

Lemma price_nonneg cost revcost k :
  (forall c, In c cost -> 0 <= c) -> (forall c, In c revcost -> 0 <= c) -> 0 <= price cost revcost k.
Proof.
  intros Pc Pr. unfold price. transitivity (sumZ (map (fun _ : Z * (Z * Z) => 0) (combine cost (combine revcost k)))).
  - rewrite sumZ_map_zero; [lia|auto].
  - apply sumZ_map_le. intros [c [r x]] H. apply in_combine_l in H as Hc. apply in_combine_r in H.
    apply in_combine_l in H. apply Pc in Hc. apply Pr in H.
    apply Z.add_nonneg_nonneg; apply Z.mul_nonneg_nonneg; lia.
Qed.

Lemma price_zero cost revcost m : price cost revcost (repeat 0 m) = 0.
Proof.
  unfold price. apply sumZ_map_zero. intros [c [r x]] H. apply in_combine_r, in_combine_r, repeat_spec in H.
  subst. cbn. lia.
Qed.

Theorem flows_cancel smcf g residues cost revcost k : smcf_sound smcf -> planar g ->
  length residues = S (length (g_cycles g)) ->
  residues_to_flows smcf (dual_solver g) residues cost revcost = Ok k -> cancels g residues k.
Proof.
  intros Hs Hp HL. unfold residues_to_flows.
  destruct (forallb (fun r => r =? 0) residues) eqn:E.
  - intros H. injection H as <-. apply zero_cancels; auto. now apply forallb_zero.
  - intros H. apply solve_mcf_ok in H as (Hz & HC & HR & f & Hf & ->); auto.
    apply Hs in Hf as [Hfe _]. exact (answer_cancels g _ _ residues f Hp HC HR HL Hfe).
Qed.

Theorem flows_optimal smcf g residues cost revcost k : smcf_sound smcf -> planar g ->
  length residues = S (length (g_cycles g)) ->
  (forall c, In c cost -> 0 <= c) -> (forall c, In c (rev_or cost revcost) -> 0 <= c) ->
  residues_to_flows smcf (dual_solver g) residues cost revcost = Ok k ->
  fits_int32 k /\
  forall k', cancels g residues k' -> fits_int32 k' ->
    price cost (rev_or cost revcost) k <= price cost (rev_or cost revcost) k'.
Proof.
  intros Hs Hp HL Pc Pr. unfold residues_to_flows. fold (rev_or cost revcost).
  destruct (forallb (fun r => r =? 0) residues) eqn:E.
  - intros H. injection H as <-. split.
    + intros x Hx. apply repeat_spec in Hx. subst. unfold int32_max. lia.
    + intros k' _ _. rewrite price_zero. now apply price_nonneg.
  - intros H. apply solve_mcf_ok in H as (Hz & HC & HR & f & Hf & ->); auto.
    apply Hs in Hf as [Hfe Hopt]. split; [exact (answer_int32 g _ _ residues f Hp HC HR Hfe)|].
    intros k' Hk' Hfit.
    pose proof (Hopt _ (arc_flow_feasible g cost (rev_or cost revcost) residues k' Hp HC HR HL Hz Hk' Hfit)) as H.
    rewrite arc_flow_cost in H by (auto; apply Hk').
    pose proof (answer_price g cost (rev_or cost revcost) residues f Hp HC HR Pc Pr Hfe). lia.
Qed.

Theorem flows_exist smcf g residues cost revcost k : smcf_complete smcf -> planar g ->
  length residues = S (length (g_cycles g)) -> sumZ residues = 0 ->
  length cost = length (g_links g) -> length (rev_or cost revcost) = length (g_links g) ->
  cancels g residues k -> fits_int32 k ->
  exists k', residues_to_flows smcf (dual_solver g) residues cost revcost = Ok k'.
Proof.
  intros Hc Hp HL Hz HC HR Hk Hfit. unfold residues_to_flows. fold (rev_or cost revcost).
  destruct (forallb _ residues); [eauto|]. unfold solve_mcf. cbv zeta. destruct (dual_length g) as [L1 L2]. rewrite L1.
  rewrite Hz, HC, HR, Nat.eqb_refl. cbn [negb andb]. change (0 =? 0) with true. cbn [negb].
  fold (the_arcs g cost (rev_or cost revcost)).
  pose proof (Hc (the_arcs g cost (rev_or cost revcost)) residues) as H.
  destruct (smcf _ residues); [eauto|]. exfalso. apply H; auto.
  exists (arc_flow g k). apply arc_flow_feasible; auto.
Qed.

Theorem flows_unbalanced smcf g residues cost revcost : sumZ residues <> 0 ->
  residues_to_flows smcf (dual_solver g) residues cost revcost = Err ValueError.
Proof.
  intros H. unfold residues_to_flows. destruct (forallb (fun r => r =? 0) residues) eqn:E.
  - exfalso. apply H. rewrite <- (map_id residues). apply sumZ_map_zero. now apply forallb_zero.
  - unfold solve_mcf. cbv zeta. destruct (Z.eqb_spec (sumZ residues) 0); [contradiction|reflexivity].
Qed.

(** * Residues of phase data can be cancelled *)
Lemma link_val_map {A} (d : A) links (h : nat * nat -> A) a b : In (a, b) links ->
  link_val d links (map h links) a b = h (a, b).
Proof.
  induction links as [|[x y] t IH]; intros H; [destruct H|]. cbn [map link_val].
  destruct (Nat.eqb_spec x a); cbn [andb].
  - destruct (Nat.eqb_spec y b); cbn [andb]; [now subst|]. destruct H as [H|H]; [congruence|auto].
  - destruct H as [H|H]; [congruence|auto].
Qed.

Lemma circZ_link_val g (h : nat -> nat -> Z) c : planar g -> In c (g_cycles g) ->
  circZ (link_val 0 (g_links g) (map (fun l => h (fst l) (snd l)) (g_links g))) c = circZ h c.
Proof.
  intros Hp Hc. unfold circZ. apply sumZ_map_ext. intros [a b] Hs. cbn [fst snd]. unfold alongZ.
  pose proof (planar_side_neq g c a b Hp Hc Hs). destruct (Nat.ltb_spec a b) as [L|L].
  - rewrite link_val_map; [reflexivity|]. eapply planar_side_link; eauto.
  - rewrite link_val_map; [reflexivity|]. eapply planar_side_link; eauto. lia.
Qed.

Lemma pdk_cancels g p r : planar g -> length p = g_npoints g ->
  compute_residues (dual_solver g) p = Ok r ->
  cancels g r (map (fun l => pdk p (fst l) (snd l)) (g_links g)).
Proof.
  intros Hp HL Hr. destruct (compute_residues_spec g p Hp HL) as (r' & Hr' & _ & _ & Hn).
  rewrite Hr' in Hr. injection Hr as ->. split; [now rewrite map_length|].
  intros c Hc. rewrite circZ_link_val by (auto; now apply nth_In). rewrite Hn by auto.
  rewrite (rint_comp _ (inject_Z (- circZ (pdk p) (nth c (g_cycles g) [])))); [rewrite rint_inject; lia|].
  rewrite (circ_pd g) by (auto; now apply nth_In). apply div_twopi_mul'.
Qed.
