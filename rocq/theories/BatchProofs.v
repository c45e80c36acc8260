(** Temporal unwrapping in batches equals the per-link computation; spatial
    unwrapping equals the per-interferogram computation. *)
From Verif Require Import Base BaseLemmas GraphModel McfModel EmcfModel PoolProofs.
From Coq Require Import ZifyBool.
Set Default Goal Selector "!".

Lemma set_slice_length {A} (l : list A) st vals : st + length vals <= length l ->
  length (set_slice l st vals) = length l.
Proof. intros H. unfold set_slice. rewrite !app_length, firstn_length, skipn_length. lia. Qed.

Lemma nth_skipn' {A} (l : list A) n i d : nth i (skipn n l) d = nth (n + i) l d.
Proof.
  revert l. induction n as [|n IH]; intros l; auto. destruct l as [|a l]; cbn [skipn Nat.add nth]; auto.
  destruct i; auto.
Qed.

Lemma nth_firstn' {A} (l : list A) n i d : i < n -> nth i (firstn n l) d = nth i l d.
Proof.
  revert l i. induction n as [|n IH]; intros l i H; [lia|]. destruct l as [|a l]; cbn [firstn]; auto.
  destruct i; cbn [nth]; auto. apply IH. lia.
Qed.

Lemma set_slice_nth {A} (l : list A) st vals i d : st + length vals <= length l ->
  nth i (set_slice l st vals) d =
  if (st <=? i) && (i <? st + length vals) then nth (i - st) vals d else nth i l d.
Proof.
  intros H. unfold set_slice.
  assert (length (firstn st l) = st) as E by (rewrite firstn_length; lia).
  destruct (Nat.leb_spec st i) as [L|L]; cbn [andb].
  - rewrite app_nth2 by lia. rewrite E. destruct (Nat.ltb_spec i (st + length vals)) as [M|M].
    + apply app_nth1. lia.
    + rewrite app_nth2 by lia. rewrite nth_skipn'. f_equal. lia.
  - rewrite app_nth1 by lia. now apply nth_firstn'.
Qed.

Lemma time_residues_length s c : length (time_residues s c) = length (g_cycles (s_graph s)) + 1.
Proof.
  unfold time_residues. cbv zeta. unfold round_residues. cbn [length]. rewrite map_length.
  match goal with |- S (length (tl ?x)) = _ => set (acc := x) end.
  assert (length acc = length (g_cycles (s_graph s)) + 1) as E.
  { unfold acc. rewrite <- (repeat_length 0%Q (length (g_cycles (s_graph s)) + 1)) at 2.
    generalize (repeat 0%Q (length (g_cycles (s_graph s)) + 1)). clear acc.
    induction (combine (s_dual s) (combine (s_dir s) c)) as [|[[c0 c1] [[d0 d1] v]] t IH]; intros a0; auto.
    cbn [fold_left]. rewrite IH. destruct (c1 =? 0); now rewrite !upd_length. }
  destruct acc; cbn [tl length] in *; lia.
Qed.

Section Time.
Variable smcf : list arc -> list Z -> option (list Z).
Variables (cpu : Z) (e : emcf) (cost : list Z) (is_ifg : bool) (data : list (list Q)).

Let n := length (em_links e).
Let lpb := links_per_batch (em_set e).
Let lnk i := nth i (em_links e) (0, 0).
Let col i := link_column is_ifg (em_ifgs e) data (lnk i).

(** Result for one spatial link. *)
Definition link_out (i : nat) : res (list Q) :=
  let c := link_column is_ifg (em_ifgs e) data (nth i (em_links e) (0, 0)) in
  do k <- residues_to_flows smcf (em_time e) (time_residues (em_time e) c) cost None;
  Ok (map (fun vk => fst vk + twopi * inject_Z (snd vk))%Q (combine c k)).

Lemma inds_nth st cnt i : st + cnt <= n -> i < cnt ->
  nth i (firstn cnt (skipn st (em_links e))) (0, 0) = lnk (st + i).
Proof. intros H Hi. rewrite nth_firstn' by auto. apply nth_skipn'. Qed.
Lemma inds_length st cnt : st + cnt <= n -> length (firstn cnt (skipn st (em_links e))) = cnt.
Proof. intros H. rewrite firstn_length, skipn_length. fold n. lia. Qed.

Definition in_batch b i := b * lpb <= i < Nat.min (b * lpb + lpb) n.

Section Batch.
Variable sched : list nat -> list nat.
Hypothesis Hsched : forall l, Permutation (sched l) l.

Lemma batch_ok b grad g' : length grad = n -> time_batch smcf sched cpu e cost is_ifg data b grad = Ok g' ->
  length g' = n /\ forall i, i < n ->
    (in_batch b i -> link_out i = Ok (nth i g' [])) /\ (~ in_batch b i -> nth i g' [] = nth i grad []).
Proof.
  intros HL H. unfold time_batch in H. cbv zeta in H. fold n lpb in H. unfold in_batch.
  destruct (Nat.eqb_spec (Nat.min (b * lpb + lpb) n - b * lpb) 0) as [Z|Z].
  { injection H as <-. split; auto. intros i Hi. split; intros K; [exfalso; lia|auto]. }
  destruct (cols_ok data _) eqn:EC; cbn [negb] in H; [|discriminate].
  set (st := b * lpb) in *. set (cnt := Nat.min (st + lpb) n - st) in *.
  set (inds := firstn cnt (skipn st (em_links e))) in *.
  assert (st + cnt <= n) as Hb by lia.
  assert (length inds = cnt) as Hil by (apply inds_length; auto).
  set (cols := map (link_column is_ifg (em_ifgs e) data) inds) in *.
  assert (length cols = cnt) as Hcl by (unfold cols; now rewrite map_length).
  destruct (residues_to_flows_many _ _ _ _ _ _ _ _) as [fl|er] eqn:EF; cbn [bind] in H; [|discriminate].
  injection H as <-.
  apply many_ok in EF; auto.
  2:{ intros r Hr. apply in_map_iff in Hr as (c & <- & _). apply time_residues_length. }
  destruct EF as [HFL HF]. rewrite map_length in HFL, HF. rewrite Hcl in HFL, HF.
  set (out := map _ (combine cols fl)) in *.
  assert (length out = cnt) as Hol by (unfold out; rewrite map_length, combine_length; lia).
  split; [rewrite set_slice_length; lia|]. intros i Hi.
  rewrite set_slice_nth by lia. rewrite Hol.
  destruct (Nat.leb_spec st i) as [L|L]; cbn [andb]; [destruct (Nat.ltb_spec i (st + cnt)) as [M|M]|]; split; intros K;
    try (exfalso; lia); auto.
  unfold link_out. fold (lnk i). specialize (HF (i - st) ltac:(lia)).
  rewrite (map_nth' _ _ _ []) in HF by lia. 
  assert (nth (i - st) cols [] = link_column is_ifg (em_ifgs e) data (lnk i)) as Ec.
  { unfold cols. rewrite (map_nth' _ _ _ (0, 0)) by lia. unfold inds. rewrite inds_nth by lia. do 2 f_equal. lia. }
  rewrite Ec in HF. rewrite HF. cbn [bind]. f_equal. unfold out.
  rewrite (map_nth' _ _ _ ([], [])) by (rewrite combine_length; lia).
  rewrite combine_nth by lia. cbn [fst snd]. now rewrite Ec.
Qed.

Lemma cols_ok_sub l l' : (forall x, In x l' -> In x l) -> cols_ok data l = true -> cols_ok data l' = true.
Proof.
  unfold cols_ok. intros Hs H. rewrite forallb_forall in *. intros row Hr. specialize (H row Hr).
  rewrite forallb_forall in *. auto.
Qed.

Lemma batch_err b grad er : length grad = n -> time_batch smcf sched cpu e cost is_ifg data b grad = Err er ->
  (er = IndexError /\ cols_ok data (em_links e) = false) \/ exists i, i < n /\ link_out i = Err er.
Proof.
  intros HL H. unfold time_batch in H. cbv zeta in H. fold n lpb in H.
  destruct (Nat.eqb_spec (Nat.min (b * lpb + lpb) n - b * lpb) 0) as [Z|Z]; [discriminate|].
  set (st := b * lpb) in *. set (cnt := Nat.min (st + lpb) n - st) in *.
  set (inds := firstn cnt (skipn st (em_links e))) in *.
  destruct (cols_ok data inds) eqn:EC; cbn [negb] in H.
  2:{ left. split; [congruence|]. destruct (cols_ok data (em_links e)) eqn:E; auto.
      rewrite (cols_ok_sub (em_links e) inds) in EC; [discriminate| |auto].
      intros x Hx. unfold inds in Hx. rewrite <- (firstn_skipn st (em_links e)).
      apply in_or_app. right. rewrite <- (firstn_skipn cnt (skipn st (em_links e))). apply in_or_app. now left. }
  right. assert (st + cnt <= n) as Hb by lia.
  assert (length inds = cnt) as Hil by (apply inds_length; auto).
  set (cols := map (link_column is_ifg (em_ifgs e) data) inds) in *.
  assert (length cols = cnt) as Hcl by (unfold cols; now rewrite map_length).
  destruct (residues_to_flows_many _ _ _ _ _ _ _ _) as [fl|er'] eqn:EF; cbn [bind] in H; [discriminate|].
  injection H as ->.
  apply many_err in EF; auto.
  2:{ intros r Hr. apply in_map_iff in Hr as (c & <- & _). apply time_residues_length. }
  destruct EF as (i & Hi & EF). rewrite map_length, Hcl in Hi. exists (st + i). split; [lia|].
  unfold link_out. fold (lnk (st + i)).
  rewrite (map_nth' _ _ _ []) in EF by lia. unfold cols in EF.
  rewrite (map_nth' _ _ _ (0, 0)) in EF by lia. unfold inds in EF. rewrite inds_nth in EF by lia.
  rewrite EF. reflexivity.
Qed.
End Batch.

Section Batches.
Variable sched : nat -> list nat -> list nat.
Hypothesis Hsched : forall b l, Permutation (sched b l) l.

Lemma batches_ok cnt : forall b grad G, length grad = n ->
  time_batches smcf sched cpu e cost is_ifg data (seq b cnt) grad = Ok G ->
  length G = n /\ forall i, i < n ->
    (b * lpb <= i < (b + cnt) * lpb -> link_out i = Ok (nth i G [])) /\
    (~ b * lpb <= i < (b + cnt) * lpb -> nth i G [] = nth i grad []).
Proof.
  induction cnt as [|cnt IH]; intros b grad G HL H; cbn [seq time_batches] in H.
  - injection H as <-. split; auto. intros i Hi. split; intros K; [exfalso; nia|auto].
  - destruct (time_batch _ _ _ _ _ _ _ _ _) as [g'|er] eqn:E; cbn [bind] in H; [|discriminate].
    apply batch_ok in E as [HL' HB]; auto. apply IH in H as [HG HI]; auto. split; auto.
    intros i Hi. destruct (HB i Hi) as [B1 B2]. destruct (HI i Hi) as [I1 I2]. unfold in_batch in *.
    split; intros K.
    + destruct (Nat.lt_ge_cases i (b * lpb + lpb)) as [L|L].
      * rewrite I2 by nia. apply B1. lia.
      * apply I1. nia.
    + rewrite I2 by nia. apply B2. nia.
Qed.

Lemma batches_err cnt : forall b grad er, length grad = n ->
  time_batches smcf sched cpu e cost is_ifg data (seq b cnt) grad = Err er ->
  (er = IndexError /\ cols_ok data (em_links e) = false) \/ exists i, i < n /\ link_out i = Err er.
Proof.
  induction cnt as [|cnt IH]; intros b grad er HL H; cbn [seq time_batches] in H; [discriminate|].
  destruct (time_batch _ _ _ _ _ _ _ _ _) as [g'|er'] eqn:E; cbn [bind] in H.
  - apply batch_ok in E as [HL' HB]; auto. eapply IH; eauto.
  - injection H as ->. eapply batch_err; eauto.
Qed.
End Batches.

Lemma nbatches_cover : 0 < lpb -> n <= (match n with O => O | S m => m / lpb + 1 end) * lpb.
Proof.
  intros H. destruct n as [|m]; [lia|]. pose proof (Nat.div_mod m lpb ltac:(lia)).
  pose proof (Nat.mod_upper_bound m lpb ltac:(lia)). nia.
Qed.
End Time.

(** unwrap_gradients_in_time, link by link. *)
Section InTime.
Variable smcf : list arc -> list Z -> option (list Z).
Variables (sched : nat -> list nat -> list nat) (cpu : Z) (e : emcf) (is_ifg : bool) (data : list (list Q)) (cost : list Z).
Hypothesis Hsched : forall b l, Permutation (sched b l) l.
Hypothesis Hcost : pick_cost (t_cost_type (em_set e)) (length (em_ifgs e)) (em_tdist e) (em_tcent e) = Ok cost.
Hypothesis Hlpb : 0 < links_per_batch (em_set e).

Lemma in_time_sound G : unwrap_gradients_in_time smcf sched cpu e is_ifg data = Ok G ->
  length G = length (em_links e) /\
  forall i, i < length (em_links e) -> link_out smcf e cost is_ifg data i = Ok (nth i G []).
Proof.
  intros H. unfold unwrap_gradients_in_time in H. rewrite Hcost in H. cbn [bind] in H. cbv zeta in H.
  apply batches_ok in H as [HL H]; auto; [|apply repeat_length]. split; auto.
  intros i Hi. apply H; auto. cbn [Nat.add]. pose proof (nbatches_cover e Hlpb). cbv zeta in *. lia.
Qed.

Lemma in_time_err er : unwrap_gradients_in_time smcf sched cpu e is_ifg data = Err er ->
  (er = IndexError /\ cols_ok data (em_links e) = false) \/
  exists i, i < length (em_links e) /\ link_out smcf e cost is_ifg data i = Err er.
Proof.
  intros H. unfold unwrap_gradients_in_time in H. rewrite Hcost in H. cbn [bind] in H. cbv zeta in H.
  apply batches_err in H; auto. apply repeat_length.
Qed.

Lemma in_time_ok G : cols_ok data (em_links e) = true ->
  unwrap_gradients_in_time smcf sched cpu e is_ifg data = Ok G <->
  length G = length (em_links e) /\
  forall i, i < length (em_links e) -> link_out smcf e cost is_ifg data i = Ok (nth i G []).
Proof.
  intros Hc. split; [apply in_time_sound|]. intros [HL H].
  destruct (unwrap_gradients_in_time smcf sched cpu e is_ifg data) as [G'|er] eqn:E.
  - apply in_time_sound in E as [HL' H']. f_equal. apply (nth_ext_len _ _ []); [congruence|]. intros i Hi.
    rewrite HL' in Hi. specialize (H i Hi). specialize (H' i Hi). congruence.
  - exfalso. apply in_time_err in E as [[_ E]|(i & Hi & E)]; [congruence|]. rewrite H in E by auto. discriminate.
Qed.
End InTime.

(** Which exception a link can raise does not depend on the link. *)
Lemma link_out_err smcf e cost is_ifg data i er : link_out smcf e cost is_ifg data i = Err er ->
  er = if length cost =? length (s_dual (em_time e)) then RuntimeError else ValueError.
Proof.
  unfold link_out. cbv zeta. intros H.
  destruct (residues_to_flows _ _ _ _ _) as [k|er'] eqn:E; cbn [bind] in H; [discriminate|]. injection H as ->.
  unfold residues_to_flows in E. destruct (forallb _ _); [discriminate|].
  unfold solve_mcf in E.
  assert (forall l, sumZ (round_residues l) = 0%Z) as K.
  { intros l. unfold round_residues. cbv zeta. rewrite sumZ_cons. lia. }
  unfold time_residues in E. cbv zeta in E. rewrite K in E. cbn [negb Z.eqb] in E. cbv zeta in E.
  destruct (Nat.eqb_spec (length cost) (length (s_dual (em_time e)))) as [L|L]; cbn [andb negb] in E.
  - destruct (smcf _ _); [discriminate|]. congruence.
  - congruence.
Qed.

(** unwrap_gradients_in_space, interferogram by interferogram. *)
Section InSpace.
Variable smcf : list arc -> list Z -> option (list Z).
Variables (sched : list nat -> list nat) (cpu : Z) (e : emcf) (grad : list (list Q)) (cost : list Z).
Hypothesis Hsched : forall l, Permutation (sched l) l.
Hypothesis Hcost : pick_cost (s_cost_type (em_set e)) (length (em_links e)) (em_sdist e) (em_scent e) = Ok cost.
Hypothesis Hw : (1 <= space_workers (s_worker_count (em_set e)) cpu)%Z.

Let out ii := unwrap_ifg_in_space smcf (em_space e) cost (map (fun col => nth ii col 0%Q) grad).

Lemma in_space_ok U : unwrap_gradients_in_space smcf sched cpu e grad = Ok U <->
  length U = length (em_ifgs e) /\ forall ii, ii < length (em_ifgs e) -> out ii = Ok (nth ii U []).
Proof.
  unfold unwrap_gradients_in_space. rewrite Hcost. cbn [bind].
  destruct (Z.leb_spec (space_workers (s_worker_count (em_set e)) cpu) 0) as [L|L]; [exfalso; lia|]. cbv zeta.
  set (N := length (em_ifgs e)). fold out. set (init := repeat (repeat 0%Q (em_npoints e)) N).
  assert (length init = N) as HI by apply repeat_length.
  destruct (map_res _ _) as [rs|er] eqn:E; cbn [bind].
  - destruct (gather_ok out (sched (seq 0 N)) (seq 0 N) (Hsched _) (seq_NoDup _ _) init rs []) as (HL & H1 & H2); auto.
    { intros i Hi. apply in_seq in Hi. lia. }
    rewrite HI in HL.
    assert (forall ii, ii < N -> out ii = Ok (nth ii (set_rows init rs) [])) as HR.
    { intros i Hi. apply H1. apply in_seq. lia. }
    split.
    + intros H. injection H as <-. auto.
    + intros [HU HRU]. f_equal. apply (nth_ext_len _ _ []); [congruence|]. intros i Hi.
      rewrite HL in Hi. specialize (HR i Hi). specialize (HRU i Hi). congruence.
  - split; [discriminate|]. intros [HU HRU]. exfalso.
    apply (gather_err out _ (seq 0 N) (Hsched _)) in E as (i & Hi & Hf). apply in_seq in Hi.
    rewrite HRU in Hf by lia. discriminate.
Qed.

Lemma in_space_err er : unwrap_gradients_in_space smcf sched cpu e grad = Err er ->
  exists ii, ii < length (em_ifgs e) /\ out ii = Err er.
Proof.
  unfold unwrap_gradients_in_space. rewrite Hcost. cbn [bind].
  destruct (Z.leb_spec (space_workers (s_worker_count (em_set e)) cpu) 0) as [L|L]; [exfalso; lia|]. cbv zeta.
  fold out. destruct (map_res _ _) as [rs|er'] eqn:E; cbn [bind]; [discriminate|]. intros H. injection H as ->.
  apply (gather_err out _ (seq 0 (length (em_ifgs e))) (Hsched _)) in E as (i & Hi & Hf). apply in_seq in Hi.
  exists i. split; [lia|auto].
Qed.
End InSpace.
