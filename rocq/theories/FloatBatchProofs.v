(** Rounded temporal unwrapping in batches equals the per-link computation;
    spatial unwrapping equals the per-interferogram computation. *)
From Verif Require Import Base BaseLemmas GraphModel McfModel EmcfModel PoolProofs BatchProofs FloatMcfModel FloatCubeModel.
From Coq Require Import ZifyBool.
Set Default Goal Selector "!".
Local Open Scope nat_scope.

Section Fmt.
Variable F : formats.

Lemma time_residues_fl_length s c : length (time_residues_fl F s c) = length (g_cycles (s_graph s)) + 1.
Proof.
  unfold time_residues_fl. cbv zeta. unfold round_residues_fl. cbn [length]. rewrite map_length.
  match goal with |- S (length (tl ?x)) = _ => set (acc := x) end.
  assert (length acc = length (g_cycles (s_graph s)) + 1) as E.
  { unfold acc. rewrite <- (repeat_length 0%Q (length (g_cycles (s_graph s)) + 1)) at 2.
    generalize (repeat 0%Q (length (g_cycles (s_graph s)) + 1)). clear acc.
    induction (combine (s_dual s) (combine (s_dir s) c)) as [|[[c0 c1] [[d0 d1] v]] t IH]; intros a0; auto.
    cbn [fold_left]. rewrite IH. destruct (c1 =? 0); now rewrite !upd_length. }
  destruct acc; cbn [tl length] in *; lia.
Qed.

Section Time.
Variable smcf : list arc -> list Z -> option (list Z).
Variables (cpu : Z) (e : emcf) (cost : list Z) (is_ifg : bool) (data : list (list Q)).

Let n := length (em_links e).
Let lpb := links_per_batch (em_set e).
Let lnk i := nth i (em_links e) (0, 0).
Let col i := link_column_fl F is_ifg (em_ifgs e) data (lnk i).

(** Result for one spatial link. *)
Definition link_out_fl (i : nat) : res (list Q) :=
  let c := link_column_fl F is_ifg (em_ifgs e) data (nth i (em_links e) (0, 0)) in
  do k <- residues_to_flows smcf (em_time e) (time_residues_fl F (em_time e) c) cost None;
  Ok (map (fun vk => shift_fl F (fst vk) (snd vk)) (combine c k)).

Lemma inds_nth st cnt i : st + cnt <= n -> i < cnt ->
  nth i (firstn cnt (skipn st (em_links e))) (0, 0) = lnk (st + i).
Proof. intros H Hi. rewrite nth_firstn' by auto. apply nth_skipn'. Qed.
Lemma inds_length st cnt : st + cnt <= n -> length (firstn cnt (skipn st (em_links e))) = cnt.
Proof. intros H. rewrite firstn_length, skipn_length. fold n. lia. Qed.

Definition in_batch b i := b * lpb <= i < Nat.min (b * lpb + lpb) n.

Section Batch.
Variable sched : list nat -> list nat.
Hypothesis Hsched : forall l, Permutation (sched l) l.

Lemma batch_ok_fl b grad g' : length grad = n -> time_batch_fl F smcf sched cpu e cost is_ifg data b grad = Ok g' ->
  length g' = n /\ forall i, i < n ->
    (in_batch b i -> link_out_fl i = Ok (nth i g' [])) /\ (~ in_batch b i -> nth i g' [] = nth i grad []).
Proof.
  intros HL H. unfold time_batch_fl in H. cbv zeta in H. fold n lpb in H. unfold in_batch.
  destruct (Nat.eqb_spec (Nat.min (b * lpb + lpb) n - b * lpb) 0) as [Z|Z].
  { injection H as <-. split; auto. intros i Hi. split; intros K; [exfalso; lia|auto]. }
  destruct (cols_ok data _) eqn:EC; cbn [negb] in H; [|discriminate].
  set (st := b * lpb) in *. set (cnt := Nat.min (st + lpb) n - st) in *.
  set (inds := firstn cnt (skipn st (em_links e))) in *.
  assert (st + cnt <= n) as Hb by lia.
  assert (length inds = cnt) as Hil by (apply inds_length; auto).
  set (cols := map (link_column_fl F is_ifg (em_ifgs e) data) inds) in *.
  assert (length cols = cnt) as Hcl by (unfold cols; now rewrite map_length).
  destruct (residues_to_flows_many _ _ _ _ _ _ _ _) as [fl|er] eqn:EF; cbn [bind] in H; [|discriminate].
  injection H as <-.
  apply many_ok in EF; auto.
  2:{ intros r Hr. apply in_map_iff in Hr as (c & <- & _). apply time_residues_fl_length. }
  destruct EF as [HFL HF]. rewrite map_length in HFL, HF. rewrite Hcl in HFL, HF.
  set (out := map _ (combine cols fl)) in *.
  assert (length out = cnt) as Hol by (unfold out; rewrite map_length, combine_length; lia).
  split; [rewrite set_slice_length; lia|]. intros i Hi.
  rewrite set_slice_nth by lia. rewrite Hol.
  destruct (Nat.leb_spec st i) as [L|L]; cbn [andb]; [destruct (Nat.ltb_spec i (st + cnt)) as [M|M]|]; split; intros K;
    try (exfalso; lia); auto.
  unfold link_out_fl. fold (lnk i). specialize (HF (i - st) ltac:(lia)).
  rewrite (map_nth' _ _ _ []) in HF by lia. 
  assert (nth (i - st) cols [] = link_column_fl F is_ifg (em_ifgs e) data (lnk i)) as Ec.
  { unfold cols. rewrite (map_nth' _ _ _ (0, 0)) by lia. unfold inds. rewrite inds_nth by lia. do 2 f_equal. lia. }
  rewrite Ec in HF. rewrite HF. cbn [bind]. f_equal. unfold out.
  rewrite (map_nth' _ _ _ ([], [])) by (rewrite combine_length; lia).
  rewrite combine_nth by lia. cbn [fst snd]. now rewrite Ec.
Qed.

Lemma cols_ok_sub l l' : (forall x, In x l' -> In x l) -> cols_ok data l = true -> cols_ok data l' = true.
Proof.
  unfold cols_ok. intros Hs H. rewrite forallb_forall in *. intros row Hr. specialize (H row Hr).
  rewrite forallb_forall in *. auto.
Qed.

Lemma batch_err_fl b grad er : length grad = n -> time_batch_fl F smcf sched cpu e cost is_ifg data b grad = Err er ->
  (er = IndexError /\ cols_ok data (em_links e) = false) \/ exists i, i < n /\ link_out_fl i = Err er.
Proof.
  intros HL H. unfold time_batch_fl in H. cbv zeta in H. fold n lpb in H.
  destruct (Nat.eqb_spec (Nat.min (b * lpb + lpb) n - b * lpb) 0) as [Z|Z]; [discriminate|].
  set (st := b * lpb) in *. set (cnt := Nat.min (st + lpb) n - st) in *.
  set (inds := firstn cnt (skipn st (em_links e))) in *.
  destruct (cols_ok data inds) eqn:EC; cbn [negb] in H.
  2:{ left. split; [congruence|]. destruct (cols_ok data (em_links e)) eqn:E; auto.
      rewrite (cols_ok_sub (em_links e) inds) in EC; [discriminate| |auto].
      intros x Hx. unfold inds in Hx. rewrite <- (firstn_skipn st (em_links e)).
      apply in_or_app. right. rewrite <- (firstn_skipn cnt (skipn st (em_links e))). apply in_or_app. now left. }
  right. assert (st + cnt <= n) as Hb by lia.
  assert (length inds = cnt) as Hil by (apply inds_length; auto).
  set (cols := map (link_column_fl F is_ifg (em_ifgs e) data) inds) in *.
  assert (length cols = cnt) as Hcl by (unfold cols; now rewrite map_length).
  destruct (residues_to_flows_many _ _ _ _ _ _ _ _) as [fl|er'] eqn:EF; cbn [bind] in H; [discriminate|].
  injection H as ->.
  apply many_err in EF; auto.
  2:{ intros r Hr. apply in_map_iff in Hr as (c & <- & _). apply time_residues_fl_length. }
  destruct EF as (i & Hi & EF). rewrite map_length, Hcl in Hi. exists (st + i). split; [lia|].
  unfold link_out_fl. fold (lnk (st + i)).
  rewrite (map_nth' _ _ _ []) in EF by lia. unfold cols in EF.
  rewrite (map_nth' _ _ _ (0, 0)) in EF by lia. unfold inds in EF. rewrite inds_nth in EF by lia.
  rewrite EF. reflexivity.
Qed.
End Batch.

Section Batches.
Variable sched : nat -> list nat -> list nat.
Hypothesis Hsched : forall b l, Permutation (sched b l) l.

Lemma batches_ok_fl cnt : forall b grad G, length grad = n ->
  time_batches_fl F smcf sched cpu e cost is_ifg data (seq b cnt) grad = Ok G ->
  length G = n /\ forall i, i < n ->
    (b * lpb <= i < (b + cnt) * lpb -> link_out_fl i = Ok (nth i G [])) /\
    (~ b * lpb <= i < (b + cnt) * lpb -> nth i G [] = nth i grad []).
Proof.
  induction cnt as [|cnt IH]; intros b grad G HL H; cbn [seq time_batches_fl] in H.
  - injection H as <-. split; auto. intros i Hi. split; intros K; [exfalso; nia|auto].
  - destruct (time_batch_fl F _ _ _ _ _ _ _ _ _) as [g'|er] eqn:E; cbn [bind] in H; [|discriminate].
    apply batch_ok_fl in E as [HL' HB]; auto. apply IH in H as [HG HI]; auto. split; auto.
    intros i Hi. destruct (HB i Hi) as [B1 B2]. destruct (HI i Hi) as [I1 I2]. unfold in_batch in *.
    split; intros K.
    + destruct (Nat.lt_ge_cases i (b * lpb + lpb)) as [L|L].
      * rewrite I2 by nia. apply B1. lia.
      * apply I1. nia.
    + rewrite I2 by nia. apply B2. nia.
Qed.

Lemma batches_err_fl cnt : forall b grad er, length grad = n ->
  time_batches_fl F smcf sched cpu e cost is_ifg data (seq b cnt) grad = Err er ->
  (er = IndexError /\ cols_ok data (em_links e) = false) \/ exists i, i < n /\ link_out_fl i = Err er.
Proof.
  induction cnt as [|cnt IH]; intros b grad er HL H; cbn [seq time_batches_fl] in H; [discriminate|].
  destruct (time_batch_fl F _ _ _ _ _ _ _ _ _) as [g'|er'] eqn:E; cbn [bind] in H.
  - apply batch_ok_fl in E as [HL' HB]; auto. eapply IH; eauto.
  - injection H as ->. eapply batch_err_fl; eauto.
Qed.
End Batches.

Lemma nbatches_cover_fl : 0 < lpb -> n <= (match n with O => O | S m => m / lpb + 1 end) * lpb.
Proof.
  intros H. destruct n as [|m]; [lia|]. pose proof (Nat.div_mod m lpb ltac:(lia)).
  pose proof (Nat.mod_upper_bound m lpb ltac:(lia)). nia.
Qed.
End Time.

(** unwrap_gradients_in_time_fl, link by link. *)
Section InTime.
Variable smcf : list arc -> list Z -> option (list Z).
Variables (sched : nat -> list nat -> list nat) (cpu : Z) (e : emcf) (is_ifg : bool) (data : list (list Q)) (cost : list Z).
Hypothesis Hsched : forall b l, Permutation (sched b l) l.
Hypothesis Hcost : pick_cost (t_cost_type (em_set e)) (length (em_ifgs e)) (em_tdist e) (em_tcent e) = Ok cost.
Hypothesis Hlpb : 0 < links_per_batch (em_set e).

Lemma in_time_sound_fl G : unwrap_gradients_in_time_fl F smcf sched cpu e is_ifg data = Ok G ->
  length G = length (em_links e) /\
  forall i, i < length (em_links e) -> link_out_fl smcf e cost is_ifg data i = Ok (nth i G []).
Proof.
  intros H. unfold unwrap_gradients_in_time_fl in H. rewrite Hcost in H. cbn [bind] in H. cbv zeta in H.
  apply batches_ok_fl in H as [HL H]; auto; [|apply repeat_length]. split; auto.
  intros i Hi. apply H; auto. cbn [Nat.add]. pose proof (nbatches_cover e Hlpb). cbv zeta in *. lia.
Qed.

Lemma in_time_err_fl er : unwrap_gradients_in_time_fl F smcf sched cpu e is_ifg data = Err er ->
  (er = IndexError /\ cols_ok data (em_links e) = false) \/
  exists i, i < length (em_links e) /\ link_out_fl smcf e cost is_ifg data i = Err er.
Proof.
  intros H. unfold unwrap_gradients_in_time_fl in H. rewrite Hcost in H. cbn [bind] in H. cbv zeta in H.
  apply batches_err_fl in H; auto. apply repeat_length.
Qed.

Lemma in_time_ok_fl G : cols_ok data (em_links e) = true ->
  unwrap_gradients_in_time_fl F smcf sched cpu e is_ifg data = Ok G <->
  length G = length (em_links e) /\
  forall i, i < length (em_links e) -> link_out_fl smcf e cost is_ifg data i = Ok (nth i G []).
Proof.
  intros Hc. split; [apply in_time_sound_fl|]. intros [HL H].
  destruct (unwrap_gradients_in_time_fl F smcf sched cpu e is_ifg data) as [G'|er] eqn:E.
  - apply in_time_sound_fl in E as [HL' H']. f_equal. apply (nth_ext_len _ _ []); [congruence|]. intros i Hi.
    rewrite HL' in Hi. specialize (H i Hi). specialize (H' i Hi). congruence.
  - exfalso. apply in_time_err_fl in E as [[_ E]|(i & Hi & E)]; [congruence|]. rewrite H in E by auto. discriminate.
Qed.
End InTime.

(** unwrap_gradients_in_space_fl, interferogram by interferogram. *)
Section InSpace.
Variable smcf : list arc -> list Z -> option (list Z).
Variables (sched : list nat -> list nat) (cpu : Z) (e : emcf) (grad : list (list Q)) (cost : list Z).
Hypothesis Hsched : forall l, Permutation (sched l) l.
Hypothesis Hcost : pick_cost (s_cost_type (em_set e)) (length (em_links e)) (em_sdist e) (em_scent e) = Ok cost.
Hypothesis Hw : (1 <= space_workers (s_worker_count (em_set e)) cpu)%Z.

Let out ii := do d <- unwrap_ifg_in_space_fl (f_s F) (f_e F) (a_g F) smcf (em_space e) cost (map (fun col => nth ii col 0%Q) grad);
  Ok (map (f_s F) d).

Lemma in_space_map l : map_res (fun ii => do d <- unwrap_ifg_in_space_fl (f_s F) (f_e F) (a_g F) smcf (em_space e) cost
    (map (fun col => nth ii col 0%Q) grad); Ok (ii, map (f_s F) d)) l = map_res (fun ii => do d <- out ii; Ok (ii, d)) l.
Proof. apply map_res_ext. intros i _. unfold out. now destruct (unwrap_ifg_in_space_fl _ _ _ _ _ _ _). Qed.

Lemma in_space_ok_fl U : unwrap_gradients_in_space_fl F smcf sched cpu e grad = Ok U <->
  length U = length (em_ifgs e) /\ forall ii, ii < length (em_ifgs e) -> out ii = Ok (nth ii U []).
Proof.
  unfold unwrap_gradients_in_space_fl. rewrite Hcost. cbn [bind].
  destruct (Z.leb_spec (space_workers (s_worker_count (em_set e)) cpu) 0) as [L|L]; [exfalso; lia|]. cbv zeta. rewrite in_space_map.
  set (N := length (em_ifgs e)). set (init := repeat (repeat 0%Q (em_npoints e)) N).
  assert (length init = N) as HI by apply repeat_length.
  destruct (map_res _ _) as [rs|er] eqn:E; cbn [bind].
  - destruct (gather_ok out (sched (seq 0 N)) (seq 0 N) (Hsched _) (seq_NoDup _ _) init rs []) as (HL & H1 & H2); auto.
    { intros i Hi. apply in_seq in Hi. lia. }
    rewrite HI in HL.
    assert (forall ii, ii < N -> out ii = Ok (nth ii (set_rows init rs) [])) as HR.
    { intros i Hi. apply H1. apply in_seq. lia. }
    split.
    + intros H. injection H as <-. auto.
    + intros [HU HRU]. f_equal. apply (nth_ext_len _ _ []); [congruence|]. intros i Hi.
      rewrite HL in Hi. specialize (HR i Hi). specialize (HRU i Hi). congruence.
  - split; [discriminate|]. intros [HU HRU]. exfalso.
    apply (gather_err out _ (seq 0 N) (Hsched _)) in E as (i & Hi & Hf). apply in_seq in Hi.
    rewrite HRU in Hf by lia. discriminate.
Qed.

Lemma in_space_err_fl er : unwrap_gradients_in_space_fl F smcf sched cpu e grad = Err er ->
  exists ii, ii < length (em_ifgs e) /\ out ii = Err er.
Proof.
  unfold unwrap_gradients_in_space_fl. rewrite Hcost. cbn [bind].
  destruct (Z.leb_spec (space_workers (s_worker_count (em_set e)) cpu) 0) as [L|L]; [exfalso; lia|]. cbv zeta. rewrite in_space_map.
  destruct (map_res _ _) as [rs|er'] eqn:E; cbn [bind]; [discriminate|]. intros H. injection H as ->.
  apply (gather_err out _ (seq 0 (length (em_ifgs e))) (Hsched _)) in E as (i & Hi & Hf). apply in_seq in Hi.
  exists i. split; [lia|auto].
Qed.
End InSpace.
End Fmt.
