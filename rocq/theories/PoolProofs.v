(** Gathering worker results under their index. *)
From Verif Require Import Base BaseLemmas GraphModel McfModel EmcfModel.
From Coq Require Import ZifyBool.
Set Default Goal Selector "!".

Lemma map_res_ok {A B} (f : A -> res B) l bs :
  map_res f l = Ok bs <-> Forall2 (fun a b => f a = Ok b) l bs.
Proof.
  revert bs. induction l as [|a l IH]; intros bs; cbn [map_res].
  - split; intros H; [injection H as <-; constructor|]. inversion H; reflexivity.
  - destruct (f a) as [b|e] eqn:E; cbn [bind].
    + destruct (map_res f l) as [bs'|e] eqn:E'; cbn [bind].
      * split; intros H.
        { injection H as <-. constructor; auto. now apply IH. }
        { inversion H as [|? b' ? bs'' H1 H2]; subst. apply IH in H2. congruence. }
      * split; intros H; [discriminate|]. inversion H as [|? b' ? bs'' H1 H2]; subst. apply IH in H2. discriminate.
    + split; intros H; [discriminate|]. inversion H as [|? b' ? bs'' H1 H2]; subst. congruence.
Qed.

Lemma map_res_err {A B} (f : A -> res B) l e : map_res f l = Err e -> exists a, In a l /\ f a = Err e.
Proof.
  induction l as [|a l IH]; cbn [map_res]; [discriminate|].
  destruct (f a) as [b|e'] eqn:E; cbn [bind].
  - destruct (map_res f l) as [bs'|e'] eqn:E'; cbn [bind]; [discriminate|].
    intros H. injection H as ->. destruct IH as (x & Hx & Hf); auto. exists x. split; [now right|auto].
  - intros H. injection H as ->. exists a. split; [now left|auto].
Qed.

Lemma map_res_total {A B} (f : A -> res B) l : (forall a, In a l -> exists b, f a = Ok b) ->
  exists bs, map_res f l = Ok bs.
Proof.
  intros H. destruct (map_res f l) as [bs|e] eqn:E; [eauto|].
  apply map_res_err in E as (a & Ha & Hf). destruct (H a Ha). congruence.
Qed.

Section Rows.
Context {A : Type}.

Lemma set_rows_length (init : list A) rs : length (set_rows init rs) = length init.
Proof.
  unfold set_rows. revert init. induction rs as [|[i r] t IH]; intros init; cbn [fold_left fst snd]; auto.
  rewrite IH. apply upd_length.
Qed.

Lemma set_rows_other (init : list A) rs i d : ~ In i (map fst rs) -> nth i (set_rows init rs) d = nth i init d.
Proof.
  unfold set_rows. revert init. induction rs as [|[j r] t IH]; intros init H; cbn [fold_left fst snd]; auto.
  cbn [map fst In] in H. rewrite IH by tauto. apply nth_upd_neq. tauto.
Qed.

Lemma set_rows_in (init : list A) rs i r d : NoDup (map fst rs) -> In (i, r) rs -> i < length init ->
  nth i (set_rows init rs) d = r.
Proof.
  revert init. induction rs as [|[j x] t IH]; intros init HN Hin Hi; [destruct Hin|].
  cbn [map fst] in HN. inversion HN as [|? ? H1 H2]; subst.
  unfold set_rows. cbn [fold_left fst snd]. fold (set_rows (upd init j x) t).
  destruct Hin as [E|Hin].
  - injection E as -> ->. rewrite set_rows_other by auto. now apply nth_upd_eq.
  - apply IH; auto. now rewrite upd_length.
Qed.

(** One task per index, results gathered in any order. *)
Variables (f : nat -> res A) (order tasks : list nat).
Hypothesis Hperm : Permutation order tasks.
Hypothesis Hnd : NoDup tasks.

Let run := map_res (fun ii => do a <- f ii; Ok (ii, a)) order.

Lemma gather_ok init rs d : (forall i, In i tasks -> i < length init) -> run = Ok rs ->
  length (set_rows init rs) = length init /\
  (forall i, In i tasks -> f i = Ok (nth i (set_rows init rs) d)) /\
  (forall i, ~ In i tasks -> nth i (set_rows init rs) d = nth i init d).
Proof.
  intros Hb H. unfold run in H. apply map_res_ok in H.
  assert (map fst rs = order) as E.
  { clear -H. induction H as [|i b l l' H1 H2 IH]; auto. cbn [map]. rewrite IH. f_equal.
    destruct (f i); cbn [bind] in H1; [|discriminate]. injection H1 as <-. reflexivity. }
  split; [apply set_rows_length|]. split.
  - intros i Hi. assert (In i order) as Ho by (eapply Permutation_in; [symmetry; eauto|auto]).
    assert (exists r, In (i, r) rs /\ f i = Ok r) as (r & Hr & Hf).
    { clear -H Ho. induction H as [|j b l l' H1 H2 IH]; [destruct Ho|].
      destruct Ho as [->|Ho].
      - destruct (f i) as [r|]; cbn [bind] in H1; [|discriminate]. injection H1 as <-. exists r. split; [now left|auto].
      - destruct (IH Ho) as (r & Hr & Hf). exists r. split; [now right|auto]. }
    rewrite Hf. f_equal. symmetry. apply set_rows_in; auto. rewrite E.
    eapply Permutation_NoDup; [symmetry; eauto|auto].
  - intros i Hi. apply set_rows_other. rewrite E. intros Ho. apply Hi. eapply Permutation_in; eauto.
Qed.

Lemma gather_err e : run = Err e -> exists i, In i tasks /\ f i = Err e.
Proof.
  intros H. apply map_res_err in H as (i & Hi & Hf). exists i. split; [eapply Permutation_in; eauto|].
  destruct (f i); cbn [bind] in Hf; [discriminate|]. congruence.
Qed.

Lemma gather_total : (forall i, In i tasks -> exists a, f i = Ok a) -> exists rs, run = Ok rs.
Proof.
  intros H. apply map_res_total. intros i Hi. destruct (H i) as [a Ha]; [eapply Permutation_in; eauto|].
  rewrite Ha. cbn [bind]. eauto.
Qed.
End Rows.

(** [residues_to_flows_many]. *)
Section Many.
Variable smcf : list arc -> list Z -> option (list Z).
Variables (sched : list nat -> list nat) (cpu : Z) (s : solver).
Variables (residues : list (list Z)) (cost : list Z) (revcost : option (list Z)) (wc : option Z).
Hypothesis Hsched : forall l, Permutation (sched l) l.

Let row ii := residues_to_flows smcf s (nth ii residues []) cost revcost.
Let many := residues_to_flows_many smcf sched cpu s residues cost revcost wc.

Lemma nonzero_row_spec r : nonzero_row r = negb (forallb (fun x => (x =? 0)%Z) r).
Proof. unfold nonzero_row. induction r as [|x r IH]; auto. cbn. rewrite IH. destruct (x =? 0)%Z; reflexivity. Qed.

Lemma many_width : (exists r, In r residues /\ length r <> length (g_cycles (s_graph s)) + 1) -> many = Err ValueError.
Proof.
  intros (r & Hr & Hl). unfold many, residues_to_flows_many.
  destruct (forallb _ residues) eqn:E; auto. exfalso. rewrite forallb_forall in E. specialize (E r Hr).
  apply Nat.eqb_eq in E. auto.
Qed.

Hypothesis Hw : forall r, In r residues -> length r = length (g_cycles (s_graph s)) + 1.

Let tasks := filter (fun ii => nonzero_row (nth ii residues [])) (seq 0 (length residues)).
Let zeros := repeat 0%Z (length (g_links (s_graph s))).

Lemma tasks_nodup : NoDup tasks.
Proof. apply NoDup_filter, seq_NoDup. Qed.
Lemma tasks_in i : In i tasks <-> i < length residues /\ nonzero_row (nth i residues []) = true.
Proof. unfold tasks. rewrite filter_In, in_seq. intuition lia. Qed.

Lemma row_zero i : i < length residues -> ~ In i tasks -> row i = Ok zeros.
Proof.
  intros Hi Hn. rewrite tasks_in in Hn. unfold row, residues_to_flows.
  destruct (forallb _ (nth i residues [])) eqn:E; auto. exfalso. apply Hn. rewrite nonzero_row_spec, E. auto.
Qed.
Lemma row_task i : In i tasks ->
  row i = solve_mcf smcf (s_dual s) (s_dir s) (nth i residues []) cost (match revcost with None => cost | Some rc => rc end).
Proof.
  intros Hn. rewrite tasks_in in Hn. destruct Hn as [_ Hn]. rewrite nonzero_row_spec in Hn. unfold row, residues_to_flows.
  destruct (forallb _ (nth i residues [])) eqn:E; auto. discriminate.
Qed.

(** The task order the results arrive in, whatever the branch. *)
Lemma map_res_ext {A B} (f g : A -> res B) l : (forall a, In a l -> f a = g a) -> map_res f l = map_res g l.
Proof.
  induction l as [|a l IH]; intros H; cbn [map_res]; auto. rewrite H by now left. rewrite IH; auto.
  intros x Hx. apply H. now right.
Qed.

Lemma many_run : exists order, Permutation order tasks /\
  many = (do rs <- map_res (fun ii => do a <- row ii; Ok (ii, a)) order;
          Ok (set_rows (repeat zeros (length residues)) rs)).
Proof.
  unfold many, residues_to_flows_many.
  assert (forallb (fun r => length r =? length (g_cycles (s_graph s)) + 1) residues = true) as ->.
  { apply forallb_forall. intros r Hr. apply Nat.eqb_eq. auto. }
  cbn [negb]. cbv zeta. fold tasks zeros. destruct (time_workers wc cpu =? 1)%Z.
  - exists tasks. split; [reflexivity|]. 
    rewrite (map_res_ext _ (fun ii => do a <- row ii; Ok (ii, a))); [reflexivity|].
    intros i Hi. unfold row, residues_to_flows. destruct revcost; reflexivity.
  - exists (sched tasks). split; [apply Hsched|].
    rewrite (map_res_ext _ (fun ii => do a <- row ii; Ok (ii, a))); [reflexivity|]. intros i Hi.
    rewrite row_task; [reflexivity|]. eapply Permutation_in; eauto.
Qed.

Lemma init_len : length (repeat zeros (length residues)) = length residues.
Proof. apply repeat_length. Qed.

Lemma many_ok F : many = Ok F <->
  length F = length residues /\ forall i, i < length residues -> row i = Ok (nth i F []).
Proof.
  destruct many_run as (order & Hp & E). rewrite E.
  destruct (map_res _ order) as [rs|e] eqn:Er; cbn [bind].
  - destruct (gather_ok row order tasks Hp tasks_nodup (repeat zeros (length residues)) rs []) as (HL & H1 & H2); auto.
    { intros i Hi. apply tasks_in in Hi. rewrite init_len. lia. }
    rewrite init_len in HL.
    assert (forall i, i < length residues -> row i = Ok (nth i (set_rows (repeat zeros (length residues)) rs) [])) as HR.
    { intros i Hi. destruct (in_dec Nat.eq_dec i tasks) as [Ht|Ht]; auto.
      rewrite H2 by auto. rewrite row_zero by auto. f_equal. symmetry.
      apply (repeat_spec (length residues) zeros). apply nth_In. now rewrite init_len. }
    split.
    + intros H. injection H as <-. auto.
    + intros [HF HRF]. f_equal. apply (nth_ext_len _ _ []); [congruence|]. intros i Hi.
      rewrite HL in Hi. specialize (HR i Hi). specialize (HRF i Hi). congruence.
  - split; [discriminate|]. intros [HF HRF]. exfalso.
    apply (gather_err row order tasks Hp) in Er as (i & Hi & Hf). apply tasks_in in Hi.
    rewrite HRF in Hf by lia. discriminate.
Qed.

Lemma many_err e : many = Err e -> exists i, i < length residues /\ row i = Err e.
Proof.
  destruct many_run as (order & Hp & E). rewrite E.
  destruct (map_res _ order) as [rs|e'] eqn:Er; cbn [bind]; [discriminate|]. intros H. injection H as ->.
  apply (gather_err row order tasks Hp) in Er as (i & Hi & Hf). apply tasks_in in Hi. exists i. split; [lia|auto].
Qed.
End Many.
