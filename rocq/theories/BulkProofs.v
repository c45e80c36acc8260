(** Proofs about the bulk offset solvers. *)
From Verif Require Import Base BaseLemmas GraphSpec OverlapModel BulkModel BulkSpec PoolProofs.
From Coq Require Import ZifyBool.
From Coq Require Import List.
Import ListNotations.
Open Scope nat_scope.
Set Default Goal Selector "!".
Local Open Scope Z_scope.

Lemma map_res_nth {A B} (f : A -> res B) l bs : map_res f l = Ok bs ->
  length bs = length l /\ forall i d d', (i < length l)%nat -> f (nth i l d) = Ok (nth i bs d').
Proof.
  intros H. apply map_res_ok in H. induction H as [|a b l bs H1 H2 [IH1 IH2]].
  - split; [reflexivity|]. cbn. intros; lia.
  - split; [cbn; lia|]. intros [|i] d d' Hi; cbn [nth]; [auto|]. apply IH2. cbn in Hi. lia.
Qed.

Lemma nth_repeat_lt {A} (x d : A) n i : (i < n)%nat -> nth i (repeat x n) d = x.
Proof. revert i. induction n; intros [|i] H; cbn; try lia; auto. apply IHn. lia. Qed.

(** ** argmax *)
Lemma argmax_from_spec l : forall i best bestv pre,
  length pre = i -> (best < i)%nat -> nth best pre 0 = bestv ->
  (forall j, (j < i)%nat -> nth j pre 0 <= bestv /\ ((j < best)%nat -> nth j pre 0 < bestv)) ->
  let k := argmax_from i best bestv l in
  (k < length (pre ++ l))%nat /\
  forall j, (j < length (pre ++ l))%nat ->
    nth j (pre ++ l) 0 <= nth k (pre ++ l) 0 /\ ((j < k)%nat -> nth j (pre ++ l) 0 < nth k (pre ++ l) 0).
Proof.
  induction l as [|v t IH]; intros i best bestv pre Hi Hb Hv Hj k.
  - unfold k. cbn [argmax_from]. rewrite app_nil_r. subst. split; [lia|]. intros j Hjl. now apply Hj.
  - replace (pre ++ v :: t) with ((pre ++ [v]) ++ t) by (now rewrite <- app_assoc).
    assert (nth i (pre ++ [v]) 0 = v) as Ev by (rewrite app_nth2, Hi, Nat.sub_diag by lia; reflexivity).
    assert (forall j, (j < i)%nat -> nth j (pre ++ [v]) 0 = nth j pre 0) as Ej
      by (intros; now rewrite app_nth1 by lia).
    unfold k. cbn [argmax_from]. destruct (Z.ltb_spec bestv v).
    + apply IH; [rewrite app_length; cbn; lia|lia|auto|].
      intros j Hji. destruct (Nat.eq_dec j i) as [->|N]; [rewrite Ev; lia|].
      rewrite Ej by lia. destruct (Hj j ltac:(lia)). lia.
    + apply IH; [rewrite app_length; cbn; lia|lia|rewrite Ej; auto|].
      intros j Hji. destruct (Nat.eq_dec j i) as [->|N]; [rewrite Ev; lia|].
      rewrite Ej by lia. apply Hj. lia.
Qed.

Lemma argmax_spec l k : argmax l = Ok k ->
  (k < length l)%nat /\
  forall j, (j < length l)%nat -> nth j l 0 <= nth k l 0 /\ ((j < k)%nat -> nth j l 0 < nth k l 0).
Proof.
  unfold argmax. destruct l as [|v t]; [discriminate|]. intros H. injection H as <-.
  apply (argmax_from_spec t 1%nat 0%nat v [v]); auto.
  intros j Hj. replace j with 0%nat by lia. cbn; lia.
Qed.

Lemma argmax_total l : l <> [] -> exists k, argmax l = Ok k.
Proof. destruct l; [easy|]. cbn. eauto. Qed.

(** ** The pinned tiles are the references *)
Lemma filter_sorted_lt f s n : forall i j, (i < j < length (filter f (seq s n)))%nat ->
  (nth i (filter f (seq s n)) 0 < nth j (filter f (seq s n)) 0)%nat.
Proof.
  revert s. induction n as [|n IH]; intros s i j Hij; [cbn in Hij; lia|]. cbn [seq filter] in *.
  destruct (f s); [|now apply IH]. destruct j as [|j]; [lia|]. cbn [length] in Hij.
  destruct i as [|i]; cbn [nth].
  - assert (In (nth j (filter f (seq (S s) n)) 0%nat) (filter f (seq (S s) n))) as H by (apply nth_In; lia).
    apply filter_In in H as [H _]. apply in_seq in H. lia.
  - apply IH. lia.
Qed.

Lemma class_ref labels counts c k :
  let conn := filter (fun v => (nth v labels 0 =? c)%nat) (seq 0 (length labels)) in
  argmax (map (fun v => nth v counts 0) conn) = Ok k ->
  nth (nth k conn 0%nat) labels 0%nat = c /\ reference labels counts (nth k conn 0%nat).
Proof.
  intros conn H. apply argmax_spec in H as [Hk Hm]. rewrite map_length in Hk, Hm.
  assert (forall v, In v conn <-> (v < length labels)%nat /\ nth v labels 0%nat = c) as Hin.
  { intros v. unfold conn. rewrite filter_In, in_seq. lia. }
  pose proof (nth_In conn 0%nat Hk) as Hr. apply Hin in Hr as [Hr Hc].
  split; [auto|]. split; [auto|]. intros v Hv Ev. rewrite Hc in Ev.
  assert (In v conn) as Iv by (apply Hin; auto).
  apply In_nth with (d := 0%nat) in Iv as (j & Hj & Ej).
  specialize (Hm j Hj). rewrite !(map_nth' _ conn _ 0%nat) in Hm by auto. rewrite Ej in Hm.
  split; [lia|]. intros Hlt. apply Hm.
  destruct (Nat.lt_total j k) as [L|[E|L]]; [auto| |].
  - subst j. lia.
  - pose proof (filter_sorted_lt (fun v => (nth v labels 0 =? c)%nat) 0 (length labels) k j) as F.
    fold conn in F. rewrite Ej in F. lia.
Qed.

Lemma reference_unique labels counts r r' : reference labels counts r -> reference labels counts r' ->
  nth r labels 0%nat = nth r' labels 0%nat -> r = r'.
Proof.
  intros [Hr H] [Hr' H'] E. destruct (Nat.lt_total r r') as [L|[|L]]; auto; exfalso.
  - pose proof (H r' Hr' (eq_sym E)). pose proof (H' r Hr E). lia.
  - pose proof (H r' Hr' (eq_sym E)). pose proof (H' r Hr E). lia.
Qed.

Lemma pinned_spec labels counts pins : pinned labels counts = Ok pins ->
  forall v, In v pins <-> reference labels counts v.
Proof.
  unfold pinned. destruct labels as [|l0 ls] eqn:EL; [discriminate|]. rewrite <- EL. intros H v.
  apply map_res_nth in H as [HL H].
  assert (forall c, (c < S (list_max labels))%nat ->
    nth (nth c pins 0%nat) labels 0%nat = c /\ reference labels counts (nth c pins 0%nat)) as K.
  { intros c Hc. specialize (H c 0%nat 0%nat). rewrite seq_length in H.
    specialize (H Hc). rewrite seq_nth in H by auto. cbn [Nat.add] in H.
    destruct (argmax _) as [k|] eqn:Ea; [|discriminate]. cbn [bind] in H. injection H as <-.
    now apply class_ref. }
  rewrite seq_length in HL. split.
  - intros Hv. apply In_nth with (d := 0%nat) in Hv as (c & Hc & <-). apply K. lia.
  - intros Hr. assert (nth v labels 0%nat <= list_max labels)%nat as Hc.
    { pose proof (proj1 (list_max_le labels (list_max labels)) (le_n _)) as F. rewrite Forall_forall in F.
      apply F, nth_In. apply Hr. }
    destruct (K (nth v labels 0%nat) ltac:(lia)) as [K1 K2].
    rewrite (reference_unique _ _ v _ Hr K2 (eq_sym K1)). apply nth_In. lia.
Qed.

Lemma pinned_class labels counts pins v : pinned labels counts = Ok pins -> (v < length labels)%nat ->
  reference labels counts (nth (nth v labels 0%nat) pins 0%nat) /\
  nth (nth (nth v labels 0%nat) pins 0%nat) labels 0%nat = nth v labels 0%nat.
Proof.
  unfold pinned. destruct labels as [|l0 ls] eqn:EL; [discriminate|]. rewrite <- EL.
  intros EP Hv. apply map_res_nth in EP as [PL PN]. rewrite seq_length in PL, PN.
  assert (nth v labels 0%nat < S (list_max labels))%nat as Hc.
  { pose proof (proj1 (list_max_le labels (list_max labels)) (le_n _)) as F. rewrite Forall_forall in F.
    apply Nat.lt_succ_r, F, nth_In. exact Hv. }
  specialize (PN _ 0%nat 0%nat Hc). rewrite seq_nth in PN by auto. cbn [Nat.add] in PN.
  destruct (argmax _) as [k|] eqn:Ea; [|discriminate]. cbn [bind] in PN. injection PN as <-.
  apply class_ref in Ea as [E1 E2]. auto.
Qed.

Lemma pinned_total labels counts : labels <> [] -> (forall c, (c <= list_max labels)%nat -> In c labels) ->
  exists pins, pinned labels counts = Ok pins.
Proof.
  intros Hl Hc. unfold pinned. destruct labels as [|l0 ls] eqn:EL; [easy|]. rewrite <- EL in *.
  apply map_res_total. intros c Hin. apply in_seq in Hin.
  destruct (argmax_total (map (fun v => nth v counts 0)
     (filter (fun v => (nth v labels 0 =? c)%nat) (seq 0 (length labels))))) as [k Hk].
  - specialize (Hc c ltac:(lia)). apply In_nth with (d := 0%nat) in Hc as (v & Hv & Ev).
    intros E. apply map_eq_nil in E.
    assert (In v []) as []. rewrite <- E. apply filter_In. rewrite in_seq. lia.
  - rewrite Hk. cbn [bind]. eauto.
Qed.

(** ** The integer program *)
Lemma nth_pairs {A B} (f g : A -> B) l k d a : (k < length l)%nat ->
  nth (2 * k) (flat_map (fun i => [f i; g i]) l) d = f (nth k l a) /\
  nth (2 * k + 1) (flat_map (fun i => [f i; g i]) l) d = g (nth k l a).
Proof.
  revert k. induction l as [|x t IH]; intros k Hk; [cbn in Hk; lia|].
  cbn [flat_map app]. destruct k as [|k]; [auto|].
  replace (2 * S k)%nat with (S (S (2 * k))) by lia. cbn [Nat.add nth].
  cbn [length] in Hk. apply IH. lia.
Qed.

Section Program.
  Context (npts : nat) (olaps : list (nat * nat)) (off : list Z) (pins : list nat).
  Let P := offsets_mip npts olaps off pins.
  Let L := length olaps.
  Hypothesis Hol : forall p, In p olaps -> (fst p < npts)%nat /\ (snd p < npts)%nat.
  Hypothesis Hpin : forall v, In v pins -> (v < npts)%nat.

  Lemma bounds_length : length (mip_bounds P) = (npts + 2 * L)%nat.
  Proof.
    unfold P, offsets_mip. cbn [mip_bounds]. rewrite app_length, repeat_length.
    rewrite (flat_map_len 2); [unfold L; lia|auto].
  Qed.

  Lemma bounds_node i : (i < npts)%nat -> nth i (mip_bounds P) (0, 0) = (- int32_max, int32_max).
  Proof. intros H. unfold P, offsets_mip. cbn [mip_bounds]. rewrite app_nth1 by (now rewrite repeat_length).
    now apply nth_repeat_lt. Qed.

  Lemma bounds_flow k : (k < L)%nat ->
    nth (npts + 2 * k) (mip_bounds P) (0, 0) = (0, int32_max) /\
    nth (npts + 2 * k + 1) (mip_bounds P) (0, 0) = (0, int32_max).
  Proof.
    intros H. unfold P, offsets_mip. cbn [mip_bounds]. rewrite !app_nth2, repeat_length by (rewrite repeat_length; lia).
    replace (npts + 2 * k - npts)%nat with (2 * k)%nat by lia.
    replace (npts + 2 * k + 1 - npts)%nat with (2 * k + 1)%nat by lia.
    apply (nth_pairs (fun _ : nat * nat => (0, int32_max)) (fun _ => (0, int32_max)) olaps k (0, 0) (0, 0)%nat H).
  Qed.

  Definition flow_p (x : list Z) k := nth (npts + 2 * k) x 0.
  Definition flow_n (x : list Z) k := nth (npts + 2 * k + 1) x 0.

  Lemma obj_val x : lin_val x (mip_obj P) = sumZ (map (fun k => flow_p x k + flow_n x k) (seq 0 L)).
  Proof.
    unfold P, offsets_mip, lin_val. cbn [mip_obj]. rewrite map_app, sumZ_app, !map_map, sumZ_map_add.
    f_equal; apply sumZ_map_ext; intros k _; cbn [fst snd]; unfold flow_p, flow_n; lia.
  Qed.

  Lemma eq_k k : (k < L)%nat -> In
    ([(snd (nth k olaps (0, 0)%nat), 1); (fst (nth k olaps (0, 0)%nat), -1);
      ((npts + 2 * k)%nat, 1); ((npts + 2 * k + 1)%nat, -1)], nth k off 0) (mip_eqs P).
  Proof.
    intros H. unfold P, offsets_mip. cbn [mip_eqs]. apply in_or_app. left. apply in_map_iff.
    exists k. rewrite in_seq. fold L. split; [|lia]. now destruct (nth k olaps (0, 0)%nat).
  Qed.

  Lemma feasible_iff x : mip_feasible P x <->
    length x = (npts + 2 * L)%nat /\
    (forall i, (i < npts)%nat -> - int32_max <= nth i x 0 <= int32_max) /\
    (forall k, (k < L)%nat -> 0 <= flow_p x k <= int32_max /\ 0 <= flow_n x k <= int32_max) /\
    (forall k, (k < L)%nat -> misfit olaps off x k = flow_p x k - flow_n x k) /\
    (forall v, In v pins -> nth v x 0 = 0).
  Proof.
    unfold mip_feasible. rewrite bounds_length. split.
    - intros (HL & HB & HE). split; [auto|]. split; [|split; [|split]].
      + intros i Hi. specialize (HB i ltac:(lia)). now rewrite bounds_node in HB.
      + intros k Hk. destruct (bounds_flow k Hk) as [B1 B2].
        pose proof (HB (npts + 2 * k)%nat ltac:(lia)) as H1. rewrite B1 in H1.
        pose proof (HB (npts + 2 * k + 1)%nat ltac:(lia)) as H2. rewrite B2 in H2. auto.
      + intros k Hk. specialize (HE _ _ (eq_k k Hk)). unfold lin_val in HE. cbn [map sumZ fold_right fst snd] in HE.
        unfold misfit, flow_p, flow_n. lia.
      + intros v Hv. specialize (HE [(v, 1)] 0). unfold lin_val in HE. cbn [map sumZ fold_right fst snd] in HE.
        assert (1 * nth v x 0 + 0 = 0); [|lia]. apply HE. unfold P, offsets_mip. cbn [mip_eqs]. apply in_or_app. right.
        apply in_map_iff. eauto.
    - intros (HL & HN & HF & HM & HP). split; [auto|]. split.
      + intros i Hi. destruct (Nat.lt_ge_cases i npts) as [C|C].
        * rewrite bounds_node by auto. now apply HN.
        * pose proof (Nat.div_mod (i - npts) 2 ltac:(lia)) as D.
          pose proof (Nat.mod_upper_bound (i - npts) 2 ltac:(lia)).
          set (k := ((i - npts) / 2)%nat) in *.
          assert (k < L)%nat as Hk by lia. destruct (bounds_flow k Hk) as [B1 B2].
          destruct (HF k Hk) as [F1 F2]. unfold flow_p, flow_n in *.
          assert (i = npts + 2 * k \/ i = npts + 2 * k + 1)%nat as [E|E] by lia; rewrite E, ?B1, ?B2; auto.
      + intros form rhs Hin. unfold P, offsets_mip in Hin. cbn [mip_eqs] in Hin.
        apply in_app_or in Hin as [Hin|Hin]; apply in_map_iff in Hin.
        * destruct Hin as (k & E & Hk). apply in_seq in Hk. fold L in Hk.
          specialize (HM k ltac:(lia)). unfold misfit in HM.
          destruct (nth k olaps (0, 0)%nat) as [t1 t2].
          assert (form = [(t2, 1); (t1, -1); ((npts + 2 * k)%nat, 1); ((npts + 2 * k + 1)%nat, -1)]) as -> by congruence.
          assert (rhs = nth k off 0) as -> by congruence.
          unfold lin_val. cbn [map sumZ fold_right fst snd]. cbn [fst snd] in HM.
          unfold flow_p, flow_n in HM. lia.
        * destruct Hin as (v & E & Hv). injection E as <- <-. unfold lin_val. cbn [map sumZ fold_right fst snd].
          rewrite (HP v Hv). reflexivity.
  Qed.

  (** The cheapest flows for given tile offsets. *)
  Definition fill_flows (n : list Z) : list Z :=
    n ++ flat_map (fun k => [Z.max (misfit olaps off n k) 0; Z.max (- misfit olaps off n k) 0]) (seq 0 L).

  Lemma fill_node n i : length n = npts -> (i < npts)%nat -> nth i (fill_flows n) 0 = nth i n 0.
  Proof. intros H Hi. unfold fill_flows. now rewrite app_nth1 by lia. Qed.

  Lemma fill_flow n k : length n = npts -> (k < L)%nat ->
    flow_p (fill_flows n) k = Z.max (misfit olaps off n k) 0 /\
    flow_n (fill_flows n) k = Z.max (- misfit olaps off n k) 0.
  Proof.
    intros H Hk. unfold flow_p, flow_n, fill_flows. rewrite !app_nth2 by lia. rewrite H.
    replace (npts + 2 * k - npts)%nat with (2 * k)%nat by lia.
    replace (npts + 2 * k + 1 - npts)%nat with (2 * k + 1)%nat by lia.
    destruct (nth_pairs (fun k => Z.max (misfit olaps off n k) 0) (fun k => Z.max (- misfit olaps off n k) 0)
      (seq 0 L) k 0 0%nat ltac:(now rewrite seq_length)) as [-> ->].
    now rewrite seq_nth by auto.
  Qed.

  Lemma misfit_same n x k : (k < L)%nat -> (forall i, (i < npts)%nat -> nth i x 0 = nth i n 0) ->
    misfit olaps off x k = misfit olaps off n k.
  Proof.
    intros Hk H. unfold misfit. destruct (Hol (nth k olaps (0, 0)%nat) (nth_In _ _ Hk)).
    now rewrite !H by auto.
  Qed.

  Lemma disagreement_same n x : (forall i, (i < npts)%nat -> nth i x 0 = nth i n 0) ->
    disagreement olaps off x = disagreement olaps off n.
  Proof.
    intros H. unfold disagreement. apply sumZ_map_ext. intros k Hk. apply in_seq in Hk. fold L in Hk.
    rewrite (misfit_same n x) by (auto; lia). reflexivity.
  Qed.

  Lemma fill_feasible n : length n = npts ->
    (forall i, (i < npts)%nat -> - int32_max <= nth i n 0 <= int32_max) ->
    (forall k, (k < L)%nat -> Z.abs (misfit olaps off n k) <= int32_max) ->
    (forall v, In v pins -> nth v n 0 = 0) ->
    mip_feasible P (fill_flows n) /\ lin_val (fill_flows n) (mip_obj P) = disagreement olaps off n.
  Proof.
    intros HL HN HM HP. assert (0 <= int32_max) as M0 by (vm_compute; discriminate). split.
    - apply feasible_iff. split; [|split; [|split; [|split]]].
      + unfold fill_flows. rewrite app_length, (flat_map_len 2), seq_length by auto. lia.
      + intros i Hi. rewrite fill_node by auto. auto.
      + intros k Hk. destruct (fill_flow n k HL Hk) as [-> ->]. specialize (HM k Hk). lia.
      + intros k Hk. destruct (fill_flow n k HL Hk) as [-> ->].
        rewrite (misfit_same n) by (auto; intros; apply fill_node; auto). lia.
      + intros v Hv. rewrite fill_node; auto.
    - rewrite obj_val. unfold disagreement. fold L. apply sumZ_map_ext. intros k Hk. apply in_seq in Hk.
      destruct (fill_flow n k HL ltac:(lia)) as [-> ->]. lia.
  Qed.
End Program.

(** ** The integer method *)
Section IntOffsets.
  Context (solve : mip -> option (list Z)) (olaps : list (nat * nat)) (labels : list nat) (off counts : list Z).
  Hypothesis Hsound : mip_sound solve.
  Let npts := length labels.

  Lemma range_check : existsb (fun p => (npts <=? fst p) || (npts <=? snd p))%nat olaps = false ->
    forall p, In p olaps -> (fst p < npts)%nat /\ (snd p < npts)%nat.
  Proof.
    intros H p Hp. assert (~ ((npts <=? fst p) || (npts <=? snd p))%nat = true) as N.
    { intros E. assert (existsb (fun p => (npts <=? fst p) || (npts <=? snd p))%nat olaps = true) as X
        by (apply existsb_exists; eauto). congruence. }
    lia.
  Qed.

  Lemma int_ok n v : solve_int_offsets solve olaps labels off counts = Ok (n, v) ->
    length n = npts /\
    (forall i, (i < npts)%nat -> - int32_max <= nth i n 0 <= int32_max) /\
    (forall r, reference labels counts r -> nth r n 0 = 0) /\
    v = disagreement olaps off n /\
    (forall n', length n' = npts ->
       (forall i, (i < npts)%nat -> - int32_max <= nth i n' 0 <= int32_max) ->
       (forall k, (k < length olaps)%nat -> Z.abs (misfit olaps off n' k) <= int32_max) ->
       (forall r, reference labels counts r -> nth r n' 0 = 0) ->
       disagreement olaps off n <= disagreement olaps off n').
  Proof.
    unfold solve_int_offsets. fold npts.
    destruct (existsb _ olaps) eqn:EO; [discriminate|]. pose proof (range_check EO) as Hol.
    destruct (pinned labels counts) as [pins|] eqn:EP; [|discriminate]. cbn [bind].
    pose proof (pinned_spec _ _ _ EP) as Hpins.
    assert (forall v, In v pins -> (v < npts)%nat) as Hpl by (intros w Hw; apply Hpins in Hw; apply Hw).
    destruct (solve _) as [x|] eqn:ES; [|discriminate]. intros E. injection E as <- <-.
    destruct (Hsound _ _ ES) as [Hf Hopt].
    apply feasible_iff in Hf as (HL & HN & HF & HM & HP).
    assert (length (firstn npts x) = npts) as Ln by (rewrite firstn_length; lia).
    assert (forall i, (i < npts)%nat -> nth i x 0 = nth i (firstn npts x) 0) as Hn.
    { intros i Hi. rewrite <- (firstn_skipn npts x) at 1. now rewrite app_nth1 by lia. }
    set (n := firstn npts x) in *.
    assert (forall r, reference labels counts r -> nth r n 0 = 0) as Hr.
    { intros r Hr. rewrite <- Hn by apply Hr. apply HP. now apply Hpins. }
    assert (forall k, (k < length olaps)%nat ->
      misfit olaps off n k = flow_p npts x k - flow_n npts x k) as Hm.
    { intros k Hk. rewrite <- HM by auto. symmetry. now apply (misfit_same npts). }
    split; [auto|]. split; [intros i Hi; rewrite <- Hn by auto; auto|]. split; [auto|].
    destruct (fill_feasible npts olaps off pins Hol Hpl n Ln) as [F1 F2].
    { intros i Hi. rewrite <- Hn by auto. auto. }
    { intros k Hk. rewrite Hm by auto. destruct (HF k Hk). lia. }
    { intros w Hw. apply Hr. now apply Hpins. }
    assert (lin_val x (mip_obj (offsets_mip npts olaps off pins)) = disagreement olaps off n) as Ev.
    { apply Z.le_antisymm.
      - rewrite <- F2. apply Hopt. exact F1.
      - rewrite obj_val. unfold disagreement. apply sumZ_map_le. intros k Hk. apply in_seq in Hk.
        rewrite Hm by lia. destruct (HF k ltac:(lia)). lia. }
    split; [exact Ev|]. intros n' L' B' M' R'.
    destruct (fill_feasible npts olaps off pins Hol Hpl n' L' B' M') as [G1 G2].
    { intros w Hw. apply R'. now apply Hpins. }
    rewrite <- Ev, <- G2. apply Hopt. exact G1.
  Qed.

  Hypothesis Hlay : layout olaps labels.

  Lemma int_total : mip_complete solve ->
    (forall k, (k < length olaps)%nat -> Z.abs (nth k off 0) <= int32_max) ->
    exists n v, solve_int_offsets solve olaps labels off counts = Ok (n, v).
  Proof.
    intros Hc Ho. destruct Hlay as (L1 & L2 & L3). unfold solve_int_offsets. fold npts.
    destruct (existsb _ olaps) eqn:EO.
    { apply existsb_exists in EO as (p & Hp & E). apply L3 in Hp. fold npts in Hp. lia. }
    destruct (pinned_total labels counts L1 L2) as [pins EP]. rewrite EP. cbn [bind].
    pose proof (pinned_spec _ _ _ EP) as Hpins.
    destruct (solve _) as [x|] eqn:ES; [eauto|]. exfalso. revert ES. apply Hc.
    exists (fill_flows olaps off (repeat 0 npts)).
    assert (forall i, nth i (repeat 0 npts) 0 = 0) as Z0.
    { intros i. destruct (nth_in_or_default i (repeat 0 npts) 0) as [H|H]; [now apply repeat_spec in H|auto]. }
    apply fill_feasible.
    - exact L3.
    - intros v Hv. apply Hpins in Hv. apply Hv.
    - now rewrite repeat_length.
    - intros i Hi. rewrite Z0. vm_compute. split; discriminate.
    - intros k Hk. unfold misfit. rewrite !Z0. specialize (Ho k Hk). lia.
    - intros v Hv. apply Z0.
  Qed.

  (** Offsets that explain the data agree wherever the overlaps connect. *)
  Lemma explains_reach n n' u w : explains olaps off n -> explains olaps off n' -> reach olaps u w ->
    nth w n 0 - nth u n 0 = nth w n' 0 - nth u n' 0.
  Proof.
    intros H H'. induction 1 as [|v v' Hr IH Hl]; [lia|].
    destruct Hl as [Hl|Hl]; apply In_nth with (d := (0, 0)%nat) in Hl as (k & Hk & E);
      specialize (H k Hk); specialize (H' k Hk); unfold misfit in H, H'; rewrite E in H, H'; cbn [fst snd] in H, H'; lia.
  Qed.

  Lemma class_has_ref v : (v < npts)%nat -> exists r, reference labels counts r /\
    nth r labels 0%nat = nth v labels 0%nat.
  Proof.
    intros Hv. set (conn := filter (fun w => (nth w labels 0 =? nth v labels 0)%nat) (seq 0 (length labels))).
    destruct (argmax_total (map (fun w => nth w counts 0) conn)) as [k Hk].
    - intros E. apply map_eq_nil in E. assert (In v []) as []. rewrite <- E.
      apply filter_In. rewrite in_seq. fold npts. lia.
    - apply class_ref in Hk as [E R]. eauto.
  Qed.

  Hypothesis Hcomp : components_of olaps labels.

  Lemma explains_unique n n' : explains olaps off n -> explains olaps off n' ->
    (forall r, reference labels counts r -> nth r n 0 = 0) ->
    (forall r, reference labels counts r -> nth r n' 0 = 0) ->
    forall v, (v < npts)%nat -> nth v n 0 = nth v n' 0.
  Proof.
    intros H H' R R' v Hv. destruct (class_has_ref v Hv) as (r & Hr & E).
    apply Hcomp in E; [|apply Hr|auto].
    pose proof (explains_reach n n' r v H H' E). pose proof (R r Hr). pose proof (R' r Hr). lia.
  Qed.

  (** Shifting each component of a solution so that its reference is zero. *)
  Lemma shift_to_refs n0 : length n0 = npts -> explains olaps off n0 ->
    (forall u w, (u < npts)%nat -> (w < npts)%nat -> Z.abs (nth u n0 0 - nth w n0 0) <= int32_max) ->
    exists n1, length n1 = npts /\ explains olaps off n1 /\
      (forall i, (i < npts)%nat -> - int32_max <= nth i n1 0 <= int32_max) /\
      (forall r, reference labels counts r -> nth r n1 0 = 0).
  Proof.
    intros L0 H0 Hs. destruct Hlay as (L1 & L2 & L3).
    destruct (pinned_total labels counts L1 L2) as [pins EP].
    pose proof (pinned_spec _ _ _ EP) as Hpins.
    assert (forall v, (v < npts)%nat -> reference labels counts (nth (nth v labels 0%nat) pins 0%nat) /\
      nth (nth (nth v labels 0%nat) pins 0%nat) labels 0%nat = nth v labels 0%nat) as HR.
    { intros v Hv. now apply pinned_class. }
    set (ref := fun v => nth (nth v labels 0%nat) pins 0%nat) in *.
    exists (map (fun v => nth v n0 0 - nth (ref v) n0 0) (seq 0 npts)).
    assert (forall v, (v < npts)%nat ->
      nth v (map (fun v => nth v n0 0 - nth (ref v) n0 0) (seq 0 npts)) 0 = nth v n0 0 - nth (ref v) n0 0) as Nv.
    { intros v Hv. rewrite (map_nth' _ _ _ 0%nat) by (now rewrite seq_length). now rewrite seq_nth by auto. }
    split; [now rewrite map_length, seq_length|]. split; [|split].
    - intros k Hk. specialize (H0 k Hk). unfold misfit in *.
      pose proof (nth_In olaps (0, 0)%nat Hk) as Hp. pose proof (L3 _ Hp) as [A B]. fold npts in A, B.
      rewrite !Nv by auto.
      assert (ref (fst (nth k olaps (0, 0)%nat)) = ref (snd (nth k olaps (0, 0)%nat))) as ->; [|lia].
      unfold ref. f_equal. apply Hcomp; auto. eapply reach_step; [apply reach_refl|].
      left. now destruct (nth k olaps (0, 0)%nat).
    - intros i Hi. rewrite Nv by auto. destruct (HR i Hi) as [[R1 _] _]. fold (ref i) in R1. fold npts in R1.
      specialize (Hs i (ref i) Hi R1). lia.
    - intros r Hr. rewrite Nv by apply Hr. destruct (HR r ltac:(apply Hr)) as [R1 R2].
      assert (ref r = r) as ->; [|lia]. apply (reference_unique _ _ _ _ R1 Hr R2).
  Qed.

  Lemma zero_disagreement n : disagreement olaps off n = 0 <-> explains olaps off n.
  Proof.
    unfold disagreement, explains. split.
    - intros H k Hk. assert (forall l, (forall x, In x l -> 0 <= x) -> sumZ l = 0 -> forall x, In x l -> x = 0) as K.
      { clear. induction l as [|a l IH]; intros Hn Hs x; [easy|]. rewrite sumZ_cons in Hs.
        assert (0 <= a) as A0 by (apply Hn; now left).
        assert (0 <= sumZ l) as S0.
        { assert (forall y, In y l -> 0 <= y) as Hl by (intros; apply Hn; now right). clear -Hl.
          induction l as [|b l IH]; [cbn; lia|]. rewrite sumZ_cons.
          pose proof (Hl b (or_introl eq_refl)). assert (0 <= sumZ l) by (apply IH; intros; apply Hl; now right). lia. }
        intros [<-|Hx]; [lia|]. apply IH; auto; [|lia]. intros; apply Hn; now right. }
      assert (Z.abs (misfit olaps off n k) = 0); [|lia].
      apply (K (map (fun k => Z.abs (misfit olaps off n k)) (seq 0 (length olaps)))).
      { intros x Hx. apply in_map_iff in Hx as (j & <- & _). lia. }
      { exact H. }
      apply in_map_iff. exists k. split; [auto|]. apply in_seq. lia.
    - intros H. apply sumZ_map_zero. intros k Hk. apply in_seq in Hk. rewrite H by lia. reflexivity.
  Qed.

  Lemma int_consistent n v n0 : solve_int_offsets solve olaps labels off counts = Ok (n, v) ->
    length n0 = npts -> explains olaps off n0 ->
    (forall u w, (u < npts)%nat -> (w < npts)%nat -> Z.abs (nth u n0 0 - nth w n0 0) <= int32_max) ->
    v = 0 /\ explains olaps off n /\
    (forall n', explains olaps off n' -> (forall r, reference labels counts r -> nth r n' 0 = 0) ->
       forall t, (t < npts)%nat -> nth t n' 0 = nth t n 0).
  Proof.
    intros H L0 E0 Hs. destruct (int_ok n v H) as (Ln & Hb & Hr & -> & Hopt).
    destruct (shift_to_refs n0 L0 E0 Hs) as (n1 & Ln1 & E1 & B1 & R1).
    assert (disagreement olaps off n = 0) as D.
    { apply Z.le_antisymm.
      - rewrite <- (proj2 (zero_disagreement n1) E1). apply Hopt; auto.
        intros k Hk. rewrite E1 by auto. vm_compute. discriminate.
      - unfold disagreement. rewrite <- (sumZ_map_zero (fun _ => 0) (seq 0 (length olaps))) by auto.
        apply sumZ_map_le. intros; lia. }
    split; [exact D|]. apply zero_disagreement in D. split; [exact D|].
    intros n' En' Rn' t Ht. now apply (explains_unique n' n).
  Qed.
End IntOffsets.

(** ** Least squares *)
Local Open Scope Q_scope.

Lemma dotQ_cons a l b m : dotQ (a :: l) (b :: m) == a * b + dotQ l m.
Proof. reflexivity. Qed.

Lemma dotQ_repeat0 n x : dotQ (repeat 0 n) x == 0.
Proof.
  revert x. induction n as [|n IH]; intros [|a x]; try reflexivity.
  cbn [repeat]. rewrite dotQ_cons, IH. ring.
Qed.

Lemma dotQ_upd l : forall k v x, (k < length l)%nat -> length x = length l ->
  dotQ (upd l k v) x == dotQ l x + (v - nth k l 0) * nth k x 0.
Proof.
  induction l as [|a l IH]; intros k v x Hk Hx; [cbn in Hk; lia|].
  destruct x as [|b x]; [discriminate|]. cbn [length] in Hk, Hx. destruct k as [|k]; cbn [upd nth].
  - rewrite !dotQ_cons. ring.
  - rewrite !dotQ_cons, IH by lia. ring.
Qed.

Lemma diff_row_dot nt i j x : (i < nt)%nat -> (j < nt)%nat -> i <> j -> length x = nt ->
  dotQ (diff_row nt (i, j)) x == nth j x 0 - nth i x 0.
Proof.
  intros Hi Hj Hij Hx. unfold diff_row. cbn [fst snd].
  rewrite dotQ_upd by (rewrite upd_length, repeat_length; auto).
  rewrite nth_upd_neq by auto. rewrite dotQ_upd by (rewrite repeat_length; auto).
  rewrite dotQ_repeat0, !nth_repeat. ring.
Qed.

Section L2.
  Context (olaps : list (nat * nat)) (nt : nat).
  Let A := map (diff_row nt) olaps.
  Hypothesis Hol : forall p, In p olaps -> (fst p < nt)%nat /\ (snd p < nt)%nat /\ fst p <> snd p.

  Lemma resid_nth b x k : length b = length olaps -> length x = nt -> (k < length olaps)%nat ->
    nth k (subQ b (mat_vec A x)) 0 == misfitQ olaps b x k.
  Proof.
    intros Hb Hx Hk. unfold subQ. rewrite (map_nth' _ _ _ (0, 0)) by (rewrite combine_length; unfold mat_vec, A; rewrite !map_length; lia).
    rewrite (combine_nth' _ _ _ 0 0) by (unfold mat_vec, A; rewrite !map_length; auto). cbn [fst snd].
    unfold mat_vec, A. rewrite map_map. rewrite (map_nth' _ _ _ (0, 0)%nat) by auto.
    unfold misfitQ. pose proof (nth_In olaps (0, 0)%nat Hk) as Hp. destruct (nth k olaps (0, 0)%nat) as [i j].
    destruct (Hol _ Hp) as (P1 & P2 & P3). rewrite diff_row_dot by auto. reflexivity.
  Qed.

  Lemma resid_length b x : length b = length olaps -> length (subQ b (mat_vec A x)) = length olaps.
  Proof. intros H. unfold subQ, mat_vec, A. rewrite map_length, combine_length, !map_length. lia. Qed.

  Lemma sumQ_nth f l : sumQ (map f l) == sumQ (map (fun k => f (nth k l 0)) (seq 0 (length l))).
  Proof. rewrite (list_eq_map_seq l 0) at 1. rewrite map_map. reflexivity. Qed.

  Lemma normsq_resid b x : length b = length olaps -> length x = nt ->
    normsq (subQ b (mat_vec A x)) ==
    sumQ (map (fun k => misfitQ olaps b x k * misfitQ olaps b x k) (seq 0 (length olaps))).
  Proof.
    intros Hb Hx. unfold normsq. rewrite sumQ_nth, resid_length by auto.
    apply sumQ_map_ext. intros k Hk. apply in_seq in Hk. rewrite resid_nth by (auto; lia). reflexivity.
  Qed.

  Lemma min_exact b x y : length b = length olaps -> length x = nt -> length y = nt ->
    minimiser A b x -> explainsQ olaps b y -> forall k, (k < length olaps)%nat -> misfitQ olaps b x k == 0.
  Proof.
    intros Hb Hx Hy Hm He k Hk. specialize (Hm y ltac:(congruence)).
    rewrite !normsq_resid in Hm by auto.
    assert (sumQ (map (fun k => misfitQ olaps b y k * misfitQ olaps b y k) (seq 0 (length olaps))) == 0) as Z0.
    { apply sumQ_map_zero. intros j Hj. apply in_seq in Hj. unfold misfitQ. rewrite (He j) by lia. ring. }
    rewrite Z0 in Hm.
    assert (forall j, In j (seq 0 (length olaps)) -> 0 <= misfitQ olaps b x j * misfitQ olaps b x j) as Nn.
    { intros j _. destruct (Qlt_le_dec (misfitQ olaps b x j) 0); nra. }
    pose proof (sumQ_map_nonneg (fun k => misfitQ olaps b x k * misfitQ olaps b x k) (seq 0 (length olaps)) Nn) as S0.
    assert (sumQ (map (fun k => misfitQ olaps b x k * misfitQ olaps b x k) (seq 0 (length olaps))) == 0) as S1 by lra.
    pose proof (sumQ_nonneg_zero _ _ Nn S1 k ltac:(apply in_seq; lia)) as K. cbn beta in K.
    destruct (Q_dec (misfitQ olaps b x k) 0) as [[C|C]|C]; [nra|nra|exact C].
  Qed.

  Lemma misfit_shift b x c : length x = nt -> (forall k, (k < length olaps)%nat ->
    misfitQ olaps b (map (fun v => v - c) x) k == misfitQ olaps b x k).
  Proof.
    intros Hx k Hk. unfold misfitQ. pose proof (nth_In olaps (0, 0)%nat Hk) as Hp.
    destruct (Hol _ Hp) as (P1 & P2 & P3). rewrite !(map_nth' _ x _ 0) by lia. ring.
  Qed.

  Lemma minimiser_shift b x c : length b = length olaps -> length x = nt -> minimiser A b x ->
    minimiser A b (map (fun v => v - c) x).
  Proof.
    intros Hb Hx Hm y Hy. rewrite map_length in Hy. rewrite (normsq_resid b (map _ _)) by (rewrite ?map_length; auto).
    rewrite (sumQ_map_ext _ (fun k => misfitQ olaps b x k * misfitQ olaps b x k)).
    - rewrite <- normsq_resid by auto. now apply Hm.
    - intros k Hk. apply in_seq in Hk. rewrite misfit_shift by (auto; lia). reflexivity.
  Qed.

  Lemma explainsQ_reach b n n' u w : explainsQ olaps b n -> explainsQ olaps b n' -> reach olaps u w ->
    nth w n 0 - nth u n 0 == nth w n' 0 - nth u n' 0.
  Proof.
    intros H H'. induction 1 as [|v v' Hr IH Hl]; [ring|].
    destruct Hl as [Hl|Hl]; apply In_nth with (d := (0, 0)%nat) in Hl as (k & Hk & E);
      specialize (H k Hk); specialize (H' k Hk); rewrite E in H, H'; cbn [fst snd] in H, H'; lra.
  Qed.
End L2.

Lemma most_points_unique counts r r' : most_points counts r -> most_points counts r' -> r = r'.
Proof.
  intros [Hr H] [Hr' H']. destruct (Nat.lt_total r r') as [L|[|L]]; auto; exfalso;
    pose proof (H r' Hr'); pose proof (H' r Hr); lia.
Qed.

Lemma match_ok {T B} (l : list T) (X : res B) y :
  match l with [] => Err IndexError | _ :: _ => X end = Ok y -> X = Ok y.
Proof. now destruct l. Qed.
Lemma match_cons {T B} (l : list T) (X : res B) : l <> [] ->
  match l with [] => Err IndexError | _ :: _ => X end = X.
Proof. now destruct l. Qed.

Section L2Offsets.
  Context (lsq : list (list Q) -> list Q -> list Q)
    (olaps : list (nat * nat)) (off : list (list Q)) (nt : nat) (counts : list Z).
  Let A := map (diff_row nt) olaps.
  Hypothesis Hdist : forall p, In p olaps -> fst p <> snd p.
  Hypothesis Hlsq : forall b, In b off -> length (lsq A b) = nt /\ minimiser A b (lsq A b).

  Lemma l2_ok O R : length counts = nt -> solve_l2_min lsq olaps off nt counts = Ok (O, R) ->
    length O = length off /\ length R = length off /\
    forall b, (b < length off)%nat -> let o := nth b O [] in let m := nth b off [] in
      length o = nt /\
      (forall c, most_points counts c -> nth c o 0 == 0) /\
      minimiser A m o /\
      nth b R 0 == sumQ (map (fun k => Qabs (misfitQ olaps m o k)) (seq 0 (length olaps))) /\
      (forall n0, length n0 = nt -> explainsQ olaps m n0 ->
         explainsQ olaps m o /\ nth b R 0 == 0 /\
         (forall n', explainsQ olaps m n' -> (forall c, most_points counts c -> nth c n' 0 == 0) ->
            (forall u v, (u < nt)%nat -> (v < nt)%nat -> reach olaps u v) ->
            forall t, (t < nt)%nat -> nth t n' 0 == nth t o 0)).
  Proof.
    intros Hcl. unfold solve_l2_min.
    destruct (existsb _ olaps) eqn:EO; [discriminate|].
    assert (forall p, In p olaps -> (fst p < nt)%nat /\ (snd p < nt)%nat /\ fst p <> snd p) as Hol.
    { intros p Hp. assert (~ ((nt <=? fst p) || (nt <=? snd p))%nat = true) as N.
      { intros E. assert (existsb (fun p => (nt <=? fst p) || (nt <=? snd p))%nat olaps = true) as X
          by (apply existsb_exists; eauto). congruence. }
      specialize (Hdist p Hp). lia. }
    intros E. apply match_ok in E. fold A in E.
    destruct (map_res (l2_min lsq A) off) as [results|] eqn:ER; [|discriminate]. cbn [bind] in E.
    destruct (argmax counts) as [c|] eqn:EC; [|discriminate]. cbn [bind] in E. injection E as <- <-. apply map_res_nth in ER as [LR HR].
    rewrite !map_length. split; [auto|]. split; [auto|]. intros b Hb.
    set (m := nth b off []). assert (In m off) as Im by (apply nth_In; auto).
    destruct (Hlsq m Im) as [Lx Mx]. specialize (HR b [] ([], []) Hb). fold m in HR.
    unfold l2_min in HR. destruct (Nat.eqb_spec (length A) (length m)) as [Lm|]; [|discriminate].
    cbn [negb] in HR. unfold A in Lm. rewrite map_length in Lm. symmetry in Lm.
    assert (nth b results ([], []) = (lsq A m, subQ m (mat_vec A (lsq A m)))) as Er by congruence. clear HR.
    rewrite !(map_nth' _ results _ ([], [])) by lia. rewrite Er. cbn [fst snd]. cbn zeta.
    set (x := lsq A m) in *.
    assert (most_points counts c) as Mc by (apply argmax_spec in EC; exact EC).
    assert (c < nt)%nat as Hc by (rewrite <- Hcl; apply Mc).
    split; [now rewrite map_length|]. split; [|split; [|split]].
    - intros c' Mc'. rewrite (most_points_unique _ _ _ Mc' Mc). rewrite (map_nth' _ x _ 0) by lia. ring.
    - now apply minimiser_shift.
    - rewrite sumQ_nth. unfold A. rewrite resid_length by auto. apply sumQ_map_ext. intros k Hk. apply in_seq in Hk.
      apply Qabs_wd. rewrite (resid_nth olaps nt) by (auto; lia). symmetry. apply (misfit_shift olaps nt); auto; lia.
    - intros n0 L0 E0. pose proof (min_exact olaps nt Hol m x n0 Lm Lx L0 Mx E0) as Hz.
      assert (explainsQ olaps m (map (fun v => v - nth c x 0) x)) as Ho.
      { intros k Hk. pose proof (misfit_shift olaps nt Hol m x (nth c x 0) Lx k Hk) as S. rewrite Hz in S by auto.
        unfold misfitQ in S. cbn zeta. lra. }
      split; [exact Ho|]. split.
      + rewrite sumQ_nth. unfold A. rewrite resid_length by auto. apply sumQ_map_zero. intros k Hk. apply in_seq in Hk.
        rewrite (Qabs_wd _ 0); [reflexivity|]. rewrite (resid_nth olaps nt) by (auto; lia). apply Hz. lia.
      + intros n' En' Rn' Hr t Ht. pose proof (explainsQ_reach olaps m n' _ c t En' Ho (Hr c t Hc Ht)) as K.
        rewrite (Rn' c Mc) in K. rewrite (map_nth' _ x c 0) in K by lia. lra.
  Qed.

  Lemma l2_total : olaps <> [] -> counts <> [] -> (forall b, In b off -> length b = length olaps) ->
    (forall p, In p olaps -> (fst p < nt)%nat /\ (snd p < nt)%nat) ->
    exists O R, solve_l2_min lsq olaps off nt counts = Ok (O, R).
  Proof.
    intros Ho Hc Hb Hr. unfold solve_l2_min. destruct (existsb _ olaps) eqn:EO.
    { apply existsb_exists in EO as (p & Hp & E). apply Hr in Hp. lia. }
    rewrite match_cons by auto. fold A.
    destruct (map_res_total (l2_min lsq A) off) as [rs ->].
    { intros b Hin. unfold l2_min. unfold A at 1. rewrite map_length, (Hb b Hin), Nat.eqb_refl. cbn [negb]. eauto. }
    destruct (argmax_total counts Hc) as [k ->]. cbn [bind]. eauto.
  Qed.
End L2Offsets.

(** ** Optimality over all integer offsets *)
Local Open Scope Z_scope.

Definition crosses (a b c : Z) : Z := if (Z.min a b <=? c) && (c <? Z.max a b) then 1 else 0.

Lemma crosses_count a b lo n : 
  sumZ (map (fun i => crosses a b (lo + Z.of_nat i)) (seq 0 n)) =
  Z.max 0 (Z.min (Z.max a b) (lo + Z.of_nat n) - Z.max (Z.min a b) lo).
Proof.
  induction n as [|n IH]; [cbn; lia|]. rewrite seq_snoc, map_app, sumZ_app, IH. cbn [map]. rewrite sumZ_cons.
  unfold crosses. cbn [Nat.add]. destruct (_ && _) eqn:E; cbn [sumZ fold_right]; lia.
Qed.

Lemma crossed (f : nat -> Z) es u w c : reach es u w -> f u <= c < f w ->
  exists p, In p es /\ crosses (f (fst p)) (f (snd p)) c = 1.
Proof.
  induction 1 as [|v v' Hr IH Hl]; [lia|]. intros Hc.
  destruct (Z.le_gt_cases (f v) c) as [C|C]; [|apply IH; lia].
  destruct Hl as [Hl|Hl]; eexists; (split; [exact Hl|]); cbn [fst snd]; unfold crosses;
    match goal with |- (if ?b then _ else _) = _ => assert (b = true) as ->; lia end.
Qed.

Lemma sumZ_ge_one {A} (f : A -> Z) l x : (forall y, In y l -> 0 <= f y) -> In x l -> f x <= sumZ (map f l).
Proof.
  induction l as [|a l IH]; intros Hn [].
  - subst a. cbn [map]. rewrite sumZ_cons.
    pose proof (sumZ_map_le (fun _ => 0) f l ltac:(intros; apply Hn; now right)) as K.
    rewrite (sumZ_map_zero (fun _ => 0)) in K by auto. lia.
  - cbn [map]. rewrite sumZ_cons. pose proof (Hn a (or_introl eq_refl)).
    specialize (IH ltac:(intros; apply Hn; now right) H). lia.
Qed.

Lemma path_bound_up (f : nat -> Z) es u w : reach es u w ->
  f w - f u <= sumZ (map (fun p => Z.abs (f (snd p) - f (fst p))) es).
Proof.
  intros H. destruct (Z.le_gt_cases (f w) (f u)) as [C|C].
  { pose proof (sumZ_map_le (fun _ => 0) (fun p : nat * nat => Z.abs (f (snd p) - f (fst p))) es ltac:(intros; cbn beta; lia)) as K.
    rewrite (sumZ_map_zero (fun _ => 0)) in K by auto. lia. }
  set (n := Z.to_nat (f w - f u)). set (lv := fun i => f u + Z.of_nat i).
  transitivity (sumZ (map (fun i => sumZ (map (fun p => crosses (f (fst p)) (f (snd p)) (lv i)) es)) (seq 0 n))).
  - replace (f w - f u) with (sumZ (map (fun _ => 1) (seq 0 n))).
    + apply sumZ_map_le. intros i Hi. apply in_seq in Hi.
      destruct (crossed f es u w (lv i) H ltac:(unfold lv; lia)) as (p & Hp & E). rewrite <- E.
      apply (sumZ_ge_one (fun p : nat * nat => crosses (f (fst p)) (f (snd p)) (lv i))); [|auto].
      intros y _. unfold crosses. destruct (_ && _); lia.
    + replace (f w - f u) with (Z.of_nat (length (seq 0 n))) by (rewrite seq_length; lia).
      generalize (seq 0 n). intros l. induction l; cbn [map length]; rewrite ?sumZ_cons; cbn [sumZ fold_right] in *; lia.
  - rewrite sumZ_swap. apply sumZ_map_le. intros p _. unfold lv. rewrite crosses_count. lia.
Qed.

Lemma path_bound (f : nat -> Z) es u w : reach es u w ->
  Z.abs (f w - f u) <= sumZ (map (fun p => Z.abs (f (snd p) - f (fst p))) es).
Proof.
  intros H. pose proof (path_bound_up f es u w H). pose proof (path_bound_up (fun v => - f v) es u w H) as H'.
  cbn beta in H'. rewrite (sumZ_map_ext _ (fun p => Z.abs (f (snd p) - f (fst p)))) in H' by (intros; lia). lia.
Qed.

Section IntOptimal.
  Context (solve : mip -> option (list Z)) (olaps : list (nat * nat)) (labels : list nat) (off counts : list Z).
  Hypothesis Hsound : mip_sound solve.
  Hypothesis Hlay : layout olaps labels.
  Hypothesis Hcomp : components_of olaps labels.
  Let npts := length labels.

  Lemma shift_any n0 : length n0 = npts ->
    exists n1, length n1 = npts /\ (forall k, (k < length olaps)%nat -> misfit olaps off n1 k = misfit olaps off n0 k) /\
      (forall r, reference labels counts r -> nth r n1 0 = 0).
  Proof.
    intros L0. destruct Hlay as (L1 & L2 & L3).
    destruct (pinned_total labels counts L1 L2) as [pins EP].
    assert (forall v, (v < npts)%nat -> reference labels counts (nth (nth v labels 0%nat) pins 0%nat) /\
      nth (nth (nth v labels 0%nat) pins 0%nat) labels 0%nat = nth v labels 0%nat) as HR.
    { intros v Hv. now apply pinned_class. }
    set (ref := fun v => nth (nth v labels 0%nat) pins 0%nat) in *.
    exists (map (fun v => nth v n0 0 - nth (ref v) n0 0) (seq 0 npts)).
    assert (forall v, (v < npts)%nat ->
      nth v (map (fun v => nth v n0 0 - nth (ref v) n0 0) (seq 0 npts)) 0 = nth v n0 0 - nth (ref v) n0 0) as Nv.
    { intros v Hv. rewrite (map_nth' _ _ _ 0%nat) by (now rewrite seq_length). now rewrite seq_nth by auto. }
    split; [now rewrite map_length, seq_length|]. split.
    - intros k Hk. unfold misfit in *.
      pose proof (nth_In olaps (0, 0)%nat Hk) as Hp. pose proof (L3 _ Hp) as [A B]. fold npts in A, B.
      rewrite !Nv by auto.
      assert (ref (fst (nth k olaps (0, 0)%nat)) = ref (snd (nth k olaps (0, 0)%nat))) as ->; [|lia].
      unfold ref. f_equal. apply Hcomp; auto. eapply reach_step; [apply reach_refl|].
      left. now destruct (nth k olaps (0, 0)%nat).
    - intros r Hr. rewrite Nv by apply Hr. destruct (HR r ltac:(apply Hr)) as [R1 R2].
      assert (ref r = r) as ->; [|lia]. apply (reference_unique _ _ _ _ R1 Hr R2).
  Qed.

  Let total := sumZ (map (fun k => Z.abs (nth k off 0)) (seq 0 (length olaps))).

  Lemma int_optimal n v : solve_int_offsets solve olaps labels off counts = Ok (n, v) ->
    2 * total <= int32_max ->
    forall n', length n' = npts -> disagreement olaps off n <= disagreement olaps off n'.
  Proof.
    intros H Ht n' Ln'. destruct (int_ok _ _ _ _ _ Hsound _ _ H) as (Ln & Hb & Hr & -> & Hopt).
    assert (forall k, (k < length olaps)%nat -> Z.abs (nth k off 0) <= total) as Hk.
    { intros k Hk. apply (sumZ_ge_one (fun k => Z.abs (nth k off 0))); [intros; lia|apply in_seq; lia]. }
    assert (0 <= total) as T0.
    { unfold total. rewrite <- (sumZ_map_zero (fun _ => 0) (seq 0 (length olaps))) by auto. apply sumZ_map_le. intros; lia. }
    assert (disagreement olaps off n <= total) as D0.
    { assert (forall i, nth i (repeat 0 npts) 0 = 0) as Z0.
      { intros i. destruct (nth_in_or_default i (repeat 0 npts) 0) as [X|X]; [now apply repeat_spec in X|auto]. }
      replace total with (disagreement olaps off (repeat 0 npts)).
      - apply Hopt; [now rewrite repeat_length| | |intros; apply Z0].
        + intros i _. rewrite Z0. unfold int32_max in *. lia.
        + intros k K. unfold misfit. rewrite !Z0. specialize (Hk k K). lia.
      - unfold disagreement, total. apply sumZ_map_ext. intros k _. unfold misfit. rewrite !Z0. f_equal. lia. }
    destruct (Z.le_gt_cases total (disagreement olaps off n')) as [C|C]; [lia|].
    destruct (shift_any n' Ln') as (n1 & L1 & M1 & R1).
    assert (disagreement olaps off n1 = disagreement olaps off n') as ED.
    { unfold disagreement. apply sumZ_map_ext. intros k K. apply in_seq in K. rewrite M1 by lia. auto. }
    rewrite <- ED in *. apply Hopt; auto.
    - intros i Hi. destruct (class_has_ref labels counts i Hi) as (r & Rr & Er).
      apply Hcomp in Er; [|apply Rr|auto].
      pose proof (path_bound (fun v => nth v n1 0) olaps r i Er) as B. cbn beta in B. rewrite (R1 r Rr) in B.
      rewrite (list_eq_map_seq olaps (0, 0)%nat), map_map in B.
      assert (sumZ (map (fun x => Z.abs (nth (snd (nth x olaps (0, 0)%nat)) n1 0 - nth (fst (nth x olaps (0, 0)%nat)) n1 0))
        (seq 0 (length olaps))) <= total + disagreement olaps off n1) as B2.
      { unfold total, disagreement. rewrite <- sumZ_map_add. apply sumZ_map_le. intros k _. unfold misfit. lia. }
      lia.
    - intros k K. assert (Z.abs (misfit olaps off n1 k) <= disagreement olaps off n1); [|lia].
      apply (sumZ_ge_one (fun k => Z.abs (misfit olaps off n1 k))); [intros; lia|apply in_seq; lia].
  Qed.
End IntOptimal.

(** ** The contract of the MIP solver can be met *)
Fixpoint boxes (bs : list (Z * Z)) : list (list Z) :=
  match bs with
  | [] => [[]]
  | (lo, hi) :: t =>
      flat_map (fun i => map (cons (lo + Z.of_nat i)) (boxes t)) (seq 0 (Z.to_nat (hi - lo + 1)))
  end.

Lemma boxes_In bs : forall x, In x (boxes bs) <-> length x = length bs /\
  forall i, (i < length x)%nat -> fst (nth i bs (0, 0)) <= nth i x 0 <= snd (nth i bs (0, 0)).
Proof.
  induction bs as [|[lo hi] t IH]; intros x; cbn [boxes].
  - split.
    + intros [<-|[]]. split; [auto|]. cbn. lia.
    + intros [H _]. destruct x; [now left|discriminate].
  - rewrite in_flat_map. split.
    + intros (i & Hi & H). apply in_map_iff in H as (y & <- & Hy). apply in_seq in Hi. apply IH in Hy as [L B].
      split; [cbn; lia|]. intros [|j] Hj; [cbn; lia|]. cbn [nth]. apply B. cbn in Hj. lia.
    + intros [L B]. destruct x as [|a x]; [discriminate|]. pose proof (B 0%nat ltac:(cbn; lia)) as B0.
      cbn [nth fst snd] in B0. exists (Z.to_nat (a - lo)). split; [apply in_seq; lia|].
      replace (lo + Z.of_nat (Z.to_nat (a - lo))) with a by lia. apply in_map. apply IH.
      split; [cbn in L; lia|]. intros j Hj. apply (B (S j)). cbn; lia.
Qed.

Definition mip_ok (p : mip) (x : list Z) : bool :=
  forallb (fun e => lin_val x (fst e) =? snd e) (mip_eqs p).
Definition better (p : mip) (x y : list Z) : list Z :=
  if lin_val x (mip_obj p) <=? lin_val y (mip_obj p) then x else y.
Definition brute_mip (p : mip) : option (list Z) :=
  match filter (mip_ok p) (boxes (mip_bounds p)) with
  | [] => None
  | x :: t => Some (fold_left (better p) t x)
  end.

Lemma fold_better p t : forall x,
  In (fold_left (better p) t x) (x :: t) /\
  forall y, In y (x :: t) -> lin_val (fold_left (better p) t x) (mip_obj p) <= lin_val y (mip_obj p).
Proof.
  induction t as [|a t IH]; intros x; cbn [fold_left].
  - split; [now left|]. intros y [<-|[]]. lia.
  - destruct (IH (better p x a)) as [A B].
    assert (lin_val (better p x a) (mip_obj p) <= lin_val x (mip_obj p) /\
            lin_val (better p x a) (mip_obj p) <= lin_val a (mip_obj p)) as [C D].
    { unfold better. destruct (Z.leb_spec (lin_val x (mip_obj p)) (lin_val a (mip_obj p))); lia. }
    split.
    + destruct A as [A|A]; [|now right; right]. rewrite <- A. unfold better. destruct (_ <=? _); cbn; auto.
    + pose proof (B _ (or_introl eq_refl)). intros y [<-|[<-|H']]; [lia|lia|]. apply B. now right.
Qed.

Lemma candidates_In p x : In x (filter (mip_ok p) (boxes (mip_bounds p))) <-> mip_feasible p x.
Proof.
  rewrite filter_In, boxes_In. unfold mip_feasible, mip_ok. rewrite forallb_forall. split.
  - intros [[A B] C]. split; [auto|]. split; [auto|]. intros f r Hin. specialize (C _ Hin). now apply Z.eqb_eq in C.
  - intros (A & B & C). split; [auto|]. intros [f r] Hin. apply Z.eqb_eq. now apply C.
Qed.

Lemma brute_mip_sound : mip_sound brute_mip.
Proof.
  intros p x. unfold brute_mip. destruct (filter _ _) as [|a t] eqn:E; [discriminate|].
  intros H. injection H as <-. destruct (fold_better p t a) as [A B]. rewrite <- E in A, B. split.
  - now apply candidates_In.
  - intros y Hy. apply B. now apply candidates_In.
Qed.

Lemma brute_mip_complete : mip_complete brute_mip.
Proof.
  intros p (x & Hx) H. apply candidates_In in Hx. unfold brute_mip in H.
  destruct (filter _ _); [destruct Hx|discriminate].
Qed.

(** ** The whole function *)
From Coq Require Import String.
From Verif Require Import TileModel.
From Coq Require Import List.
Import ListNotations.
Local Open Scope Z_scope.

Lemma find_group f p g :
  find (fun g => ((fst (og_pair g) =? fst p) && (snd (og_pair g) =? snd p))%nat) (of_groups f) = Some g ->
  In g (of_groups f) /\ og_pair g = p.
Proof.
  intros H. apply find_some in H as [H E]. split; [auto|].
  destruct (og_pair g) as [a b], p as [c d]. cbn [fst snd] in E. f_equal; lia.
Qed.

Lemma bulk_groups f groups :
  map_res (fun p =>
    match find (fun g => ((fst (og_pair g) =? fst p) && (snd (og_pair g) =? snd p))%nat) (of_groups f) with
    | Some g => Ok g | None => Err KeyError end) (of_overlaps f) = Ok groups ->
  length groups = length (of_overlaps f) /\
  forall k, (k < length (of_overlaps f))%nat -> forall b,
    median_of f b (nth k (of_overlaps f) (0, 0)%nat)
      (nth k (map (fun x => nth b x 0) (map (fun g => map (fun row => nth 5 row 0) (og_stats g)) groups)) 0).
Proof.
  intros H. apply map_res_nth in H as [L H]. split; [auto|]. intros k Hk b. unfold median_of.
  specialize (H k (0, 0)%nat (OGroup (0, 0)%nat [] [] []) Hk). destruct (find _ _) as [g|] eqn:E; [|discriminate].
  injection H as Eg. apply find_group in E as [I P]. exists g. split; [auto|]. split; [auto|].
  rewrite map_map, (map_nth' _ _ _ (OGroup (0, 0)%nat [] [] [])) by lia. rewrite <- Eg.
  destruct (Nat.lt_ge_cases b (length (og_stats g))) as [C|C].
  - now rewrite (map_nth' _ _ _ []) by auto.
  - rewrite (nth_overflow (og_stats g)) by auto. now rewrite nth_overflow by (now rewrite map_length).
Qed.

Lemma bulk_int solve lsq f t arr O R :
  get_bulk_offsets solve lsq "integer"%string f t arr = Ok (O, R) ->
  length O = length R /\
  forall b, (b < length O)%nat -> exists n v off,
    nth b O [] = map inject_Z n /\ nth b R 0%Q = inject_Z v /\ length off = length (of_overlaps f) /\
    (forall k, (k < length off)%nat -> median_of f b (nth k (of_overlaps f) (0, 0)%nat) (nth k off 0)) /\
    solve_int_offsets solve (of_overlaps f) (of_conn_comp f) off (map (count_valid arr) (tiles t)) = Ok (n, v).
Proof.
  unfold get_bulk_offsets. destruct (map_res _ (of_overlaps f)) as [groups|] eqn:EG; [|discriminate].
  cbn [bind]. apply bulk_groups in EG as [LG HG].
  set (offsets := map (fun g => map (fun row => nth 5 row 0) (og_stats g)) groups) in *.
  destruct offsets as [|first rest] eqn:EO; [discriminate|]. rewrite <- EO in *. cbn [String.eqb Ascii.eqb Bool.eqb].
  destruct (map_res _ (seq 0 _)) as [sols|] eqn:ES; [|discriminate]. cbn [bind]. intros H. injection H as <- <-.
  rewrite !map_length. split; [auto|]. intros b Hb. apply map_res_nth in ES as [LS HS]. rewrite seq_length in LS, HS.
  specialize (HS b 0%nat ([], 0) ltac:(lia)). rewrite seq_nth in HS by lia. cbn [Nat.add] in HS.
  exists (fst (nth b sols ([], 0))), (snd (nth b sols ([], 0))), (map (fun x => nth b x 0) offsets).
  rewrite !(map_nth' _ sols _ ([], 0)) by auto. split; [auto|]. split; [auto|].
  assert (length offsets = length (of_overlaps f)) as LO by (unfold offsets; now rewrite map_length).
  split; [now rewrite map_length|]. split.
  - intros k Hk. rewrite map_length, LO in Hk. now apply HG.
  - rewrite HS. now destruct (nth b sols ([], 0)).
Qed.

Lemma bulk_l2 solve lsq f t arr O R :
  get_bulk_offsets solve lsq "L2"%string f t arr = Ok (O, R) ->
  exists offs,
    (forall b, (b < length offs)%nat -> length (nth b offs []) = length (of_overlaps f) /\
      forall k, (k < length (of_overlaps f))%nat -> exists m,
        median_of f b (nth k (of_overlaps f) (0, 0)%nat) m /\ nth k (nth b offs []) 0%Q = inject_Z m) /\
    solve_l2_min lsq (of_overlaps f) offs (ntiles t) (map (count_valid arr) (tiles t)) = Ok (O, R).
Proof.
  unfold get_bulk_offsets. destruct (map_res _ (of_overlaps f)) as [groups|] eqn:EG; [|discriminate].
  cbn [bind]. apply bulk_groups in EG as [LG HG].
  set (offsets := map (fun g => map (fun row => nth 5 row 0) (og_stats g)) groups) in *.
  destruct offsets as [|first rest] eqn:EO; [discriminate|]. rewrite <- EO in *. cbn [String.eqb Ascii.eqb Bool.eqb].
  intros H. eexists. split; [|exact H]. intros b Hb. rewrite map_length, seq_length in Hb.
  rewrite (map_nth' _ _ _ 0%nat) by (now rewrite seq_length). rewrite seq_nth by auto. cbn [Nat.add].
  assert (length offsets = length (of_overlaps f)) as LO by (unfold offsets; now rewrite map_length).
  split; [now rewrite !map_length|]. intros k Hk. eexists. split; [apply (HG k Hk b)|].
  rewrite (map_nth' _ _ _ 0) by (rewrite map_length; lia). reflexivity.
Qed.

(** ** Counting valid pixels *)
Lemma sum_zero {A} (f : A -> nat) l : (forall x, f x = 0%nat) -> fold_right Nat.add 0%nat (map f l) = 0%nat.
Proof. intros Hf. induction l as [|a l IH]; [auto|]. cbn [map fold_right]. now rewrite IH, Hf. Qed.

Lemma slice_count {A} (f : A -> nat) l d : forall k n, (forall j, (length l <= j)%nat -> f (nth j l d) = 0%nat) ->
  fold_right Nat.add 0%nat (map f (firstn n (skipn k l))) =
  fold_right Nat.add 0%nat (map (fun j => f (nth j l d)) (seq k n)).
Proof.
  intros k n Hd. assert (forall n, fold_right Nat.add 0%nat (map f (firstn n l)) =
    fold_right Nat.add 0%nat (map (fun j => f (nth j l d)) (seq 0 n))) as K0.
  { clear k n. revert Hd. induction l as [|a l IH]; intros Hd n.
    - rewrite firstn_nil. cbn [map fold_right]. symmetry. apply sum_zero. intros j. apply Hd. cbn; lia.
    - destruct n as [|n]; [auto|]. cbn [firstn map fold_right seq nth]. f_equal.
      rewrite <- seq_shift, map_map. apply IH. intros j Hj. apply (Hd (S j)). cbn; lia. }
  revert l Hd K0. induction k as [|k IH]; intros l Hd K0; [apply K0|].
  destruct l as [|a l].
  - cbn [skipn]. rewrite firstn_nil. cbn [map fold_right]. symmetry. apply sum_zero. intros j. apply Hd. cbn; lia.
  - cbn [skipn]. rewrite <- seq_shift, map_map. cbn [nth]. apply IH.
    + intros j Hj. apply (Hd (S j)). cbn; lia.
    + intros m. specialize (K0 (S m)). cbn [firstn map fold_right seq nth] in K0.
      rewrite <- seq_shift, map_map in K0. cbn [nth] in K0. lia.
Qed.

Lemma length_filter_sum {A} (p : A -> bool) l :
  length (filter p l) = fold_right Nat.add 0%nat (map (fun x => if p x then 1 else 0)%nat l).
Proof. induction l as [|a l IH]; [auto|]. cbn [filter map fold_right]. destruct (p a); cbn; lia. Qed.

Lemma length_filter_flat {A B} (p : B -> bool) (f : A -> list B) l :
  length (filter p (flat_map f l)) = fold_right Nat.add 0%nat (map (fun x => length (filter p (f x))) l).
Proof.
  induction l as [|a l IH]; [auto|]. cbn [flat_map map fold_right]. rewrite filter_app, app_length. lia.
Qed.

Lemma count_valid_spec arr b : 0 <= xmin b -> 0 <= ymin b ->
  count_valid arr b = Z.of_nat (length (filter (valid_at arr)
    (box_pixels (Z.to_nat (xmin b)) (Z.to_nat (xmax b)) (Z.to_nat (ymin b)) (Z.to_nat (ymax b))))).
Proof.
  intros Hx Hy. unfold count_valid, box_pixels. f_equal.
  replace (Z.to_nat (xmax b - xmin b)) with (Z.to_nat (xmax b) - Z.to_nat (xmin b))%nat by lia.
  replace (Z.to_nat (ymax b - ymin b)) with (Z.to_nat (ymax b) - Z.to_nat (ymin b))%nat by lia.
  rewrite !length_filter_flat.
  set (g := fun row : list bool => fold_right Nat.add 0%nat
     (map (fun c => if nth c row false then 1 else 0)%nat (seq (Z.to_nat (ymin b)) (Z.to_nat (ymax b) - Z.to_nat (ymin b))))).
  assert (forall row, length (filter (fun v => v) (firstn (Z.to_nat (ymax b) - Z.to_nat (ymin b)) (skipn (Z.to_nat (ymin b)) row))) = g row) as G.
  { intros row. rewrite length_filter_sum. unfold g.
    apply (slice_count (fun v : bool => if v then 1 else 0)%nat row false). intros j Hj. now rewrite nth_overflow. }
  rewrite (map_ext _ _ G).
  rewrite (slice_count g arr []).
  - f_equal. apply map_ext. intros r. unfold g. rewrite length_filter_sum, map_map. reflexivity.
  - intros j Hj. rewrite nth_overflow by auto. unfold g.
    generalize (seq (Z.to_nat (ymin b)) (Z.to_nat (ymax b) - Z.to_nat (ymin b))). intros l.
    induction l as [|a l IH]; [auto|]. cbn [map fold_right]. rewrite IH. now destruct a.
Qed.
