(** Hop3Graph satisfies the planar contract. *)
From Verif Require Import Base BaseLemmas GraphModel GraphSpec GraphProofs.
From Coq Require Import ZifyBool.
Set Default Goal Selector "!".

Lemma pair_eq_iff {A B} (x u : A) (y v : B) : (x, y) = (u, v) <-> x = u /\ y = v.
Proof. split; [intros E; injection E; auto|intros [-> ->]; auto]. Qed.

Ltac nodup_lia := repeat (apply NoDup_cons; [cbn [In]; rewrite ?pair_eq_iff; lia|]); apply NoDup_nil.

Lemma hop3_sides_NoDup n : 4 <= n -> NoDup (hop3_sides n).
Proof.
  intros Hn. unfold hop3_sides.
  assert (forall a b, In (a, b) (flat_map (fun ii => [(ii,ii+2); (ii+2,ii+3); (ii+3,ii);
      (ii,ii+3); (ii+3,ii+1); (ii+1,ii)]) (seq 1 (n - 4))) ->
      (a < b /\ (b = a+1 /\ 3 <= a \/ b = a+2 /\ 1 <= a < n - 3 \/ b = a+3 /\ 1 <= a))
      \/ (b < a /\ (a = b+1 /\ 1 <= b < n-3 \/ a = b + 2 /\ 2 <= b \/ a = b+3 /\ 1 <= b))) as M.
  { intros a b H. apply in_flat_map in H as (ii & Hi & H). rewrite in_seq in Hi.
    cbn [In] in H. rewrite !pair_eq_iff in H. lia. }
  apply NoDup_app_intro; [nodup_lia| |].
  - apply NoDup_app_intro; [|nodup_lia|].
    + apply NoDup_flat_map; [apply seq_NoDup| |].
      * intros x Hx. rewrite in_seq in Hx. nodup_lia.
      * intros x y [a b] _ _ H1 H2. cbn [In] in H1, H2. rewrite !pair_eq_iff in H1, H2. lia.
    + intros [a b] H1 H2. apply M in H1. cbn [In] in H2. rewrite !pair_eq_iff in H2. lia.
  - intros [a b] H1 H2. cbn [In] in H1. rewrite !pair_eq_iff in H1.
    rewrite in_app_iff in H2. destruct H2 as [H2|H2].
    + apply M in H2. lia.
    + cbn [In] in H2. rewrite !pair_eq_iff in H2. lia.
Qed.

Lemma hop3_conn n v : 4 <= n -> v < n -> reach (hop3_link_list n) 0 v.
Proof.
  intros Hn. induction v as [|v IH]; intros Hv; [apply reach_refl|].
  eapply reach_step; [apply IH; lia|]. left. apply hop3_link_list_In; lia.
Qed.

Local Open Scope Q_scope.

Lemma circQ_tri f a b c :
  circQ f [a; b; c] == alongQ f a b + alongQ f b c + alongQ f c a.
Proof. unfold circQ, sides. cbn [combine app map fst snd]. rewrite !sumQ_cons, sumQ_nil. ring. Qed.

Lemma along_lt f a b : (a < b)%nat -> alongQ f a b = f a b.
Proof. intros H. unfold alongQ. destruct (Nat.ltb_spec a b); [auto|lia]. Qed.
Lemma along_gt f a b : (b < a)%nat -> alongQ f a b = - f b a.
Proof. intros H. unfold alongQ. destruct (Nat.ltb_spec a b); [lia|auto]. Qed.

Definition hop3_phi (f : nat -> nat -> Q) (i : nat) : Q :=
  sumQ (map (fun t => f t (t + 1)%nat) (seq 0 i)).

Lemma hop3_phi_S f i : hop3_phi f (i + 1) == hop3_phi f i + f i (i + 1)%nat.
Proof.
  unfold hop3_phi. replace (i + 1)%nat with (S i) at 1 by lia.
  rewrite seq_snoc, map_app, sumQ_app. cbn [map]. rewrite sumQ_cons, sumQ_nil, Nat.add_0_l. ring.
Qed.

Lemma hop3_span n f : (4 <= n)%nat ->
  (forall c, In c (g_cycles (hop3_graph n)) -> circQ f c == 0) ->
  potentialQ (hop3_graph n) f (hop3_phi f).
Proof.
  intros Hn Hc.
  assert (forall a b c, In (a, b, c) (hop3_cycles n) ->
    alongQ f a b + alongQ f b c + alongQ f c a == 0) as T.
  { intros a b c H. rewrite <- circQ_tri. apply Hc. cbn [hop3_graph g_cycles].
    apply in_map_iff. exists (a, b, c). auto. }
  assert (f 0 2 == f 0 1 + f 1 2)%nat as F02.
  { specialize (T 0 1 2)%nat. rewrite !along_lt, along_gt in T by lia.
    assert (H : f 0%nat 1%nat + f 1%nat 2%nat + - f 0%nat 2%nat == 0)
      by (apply T, hop3_cycles_In; auto). lra. }
  assert (f 0 3 == f 0 2 + f 2 3)%nat as F03.
  { specialize (T 0 2 3)%nat. rewrite !along_lt, along_gt in T by lia.
    assert (H : f 0%nat 2%nat + f 2%nat 3%nat + - f 0%nat 3%nat == 0)
      by (apply T, hop3_cycles_In; auto). lra. }
  assert (forall i, (1 <= i < n - 3)%nat ->
    f i (i + 3)%nat == f i (i + 2)%nat + f (i + 2)%nat (i + 3)%nat /\
    f i (i + 3)%nat == f i (i + 1)%nat + f (i + 1)%nat (i + 3)%nat) as M.
  { intros i Hi. split.
    - assert (In (i, i + 2, i + 3)%nat (hop3_cycles n)) as H.
      { apply hop3_cycles_In; auto. do 3 right. exists i; auto. }
      apply T in H. rewrite !along_lt, along_gt in H by lia. lra.
    - assert (In (i, i + 3, i + 1)%nat (hop3_cycles n)) as H.
      { apply hop3_cycles_In; auto. do 3 right. exists i; auto. }
      apply T in H. rewrite along_lt, !along_gt in H by lia. lra. }
  assert (f (n - 3) (n - 1) == f (n - 3) (n - 2) + f (n - 2) (n - 1))%nat as FL.
  { assert (In (n - 3, n - 1, n - 2)%nat (hop3_cycles n)) as H by (apply hop3_cycles_In; auto).
    apply T in H. rewrite along_lt, !along_gt in H by lia. lra. }
  (* downward induction: two-step links *)
  assert (forall d i, (1 <= i)%nat -> (i + d = n - 3)%nat ->
    f i (i + 2)%nat == f i (i + 1)%nat + f (i + 1)%nat (i + 2)%nat) as D2.
  { induction d as [|d IH]; intros i H1 H2.
    - replace i with (n - 3)%nat by lia. replace (n - 3 + 2)%nat with (n - 1)%nat by lia.
      replace (n - 3 + 1)%nat with (n - 2)%nat by lia. exact FL.
    - specialize (IH (i + 1)%nat ltac:(lia) ltac:(lia)).
      destruct (M i ltac:(lia)) as [M1 M2].
      replace (i + 1 + 2)%nat with (i + 3)%nat in IH by lia.
      replace (i + 1 + 1)%nat with (i + 2)%nat in IH by lia. lra. }
  intros a b Hab. cbn [hop3_graph g_links] in Hab. apply hop3_link_list_In in Hab as [H1 H2]; auto.
  assert (forall i, hop3_phi f (i + 2) == hop3_phi f i + f i (i + 1)%nat + f (i + 1)%nat (i + 2)%nat) as P2.
  { intros i. replace (i + 2)%nat with (i + 1 + 1)%nat by lia. now rewrite !hop3_phi_S. }
  assert (forall i, hop3_phi f (i + 3) == hop3_phi f i + f i (i + 1)%nat + f (i + 1)%nat (i + 2)%nat
     + f (i + 2)%nat (i + 3)%nat) as P3.
  { intros i. replace (i + 3)%nat with (i + 2 + 1)%nat by lia. now rewrite hop3_phi_S, P2. }
  assert (forall i, (i + 2 < n)%nat -> f i (i + 2)%nat == f i (i + 1)%nat + f (i + 1)%nat (i + 2)%nat) as E2.
  { intros [|i] Hi; [exact F02|]. apply (D2 (n - 3 - S i)%nat); lia. }
  assert (b = a + 1 \/ b = a + 2 \/ b = a + 3)%nat as [->|[->| ->]] by lia.
  - rewrite hop3_phi_S. ring.
  - rewrite P2, E2 by lia. ring.
  - rewrite P3. specialize (E2 a ltac:(lia)). destruct a as [|a].
    + cbn [Nat.add] in *. rewrite F03, F02. ring.
    + destruct (M (S a) ltac:(lia)) as [M1 _]. rewrite M1, E2. ring.
Qed.

Local Close Scope Q_scope.

Lemma hop3_planar n : 4 <= n -> planar (hop3_graph n).
Proof.
  intros Hn. constructor.
  - apply sorted_NoDup, hop3_link_list_sorted; auto.
  - intros a b H. apply hop3_link_list_In in H; auto. cbn [hop3_graph g_npoints]. lia.
  - intros v Hv. apply hop3_conn; auto.
  - cbn. rewrite hop3_cycles_closed by auto. discriminate.
  - intros c c' H H'. cbn [hop3_graph g_cycles] in *.
    apply in_map_iff in H as ([[? ?] ?] & <- & _).
    apply in_map_iff in H' as ([[? ?] ?] & <- & _). reflexivity.
  - intros c H. cbn [hop3_graph g_cycles] in H.
    apply in_map_iff in H as ([[? ?] ?] & <- & _). cbn. lia.
  - intros a b H. rewrite hop3_all_sides, hop3_sides_In in H by auto.
    cbn [hop3_graph g_links]. rewrite !hop3_link_list_In by auto. lia.
  - rewrite hop3_all_sides by auto. now apply hop3_sides_NoDup.
  - intros a b H. cbn [hop3_graph g_links] in H. apply hop3_link_list_In in H; auto.
    rewrite hop3_all_sides by auto. rewrite !hop3_sides_In by auto. rewrite !pair_eq_iff. lia.
  - intros f Hf. exists (hop3_phi f). now apply hop3_span.
Qed.

Lemma hop3_boundary_ok n a b : 4 <= n ->
  on_boundary (hop3_graph n) a b <-> In (a, b) (hop3_link_list n) /\ listed hop3_boundary a b.
Proof.
  intros Hn. unfold on_boundary, listed, hop3_boundary.
  rewrite hop3_all_sides by auto. rewrite !hop3_sides_In by auto.
  change (g_links (hop3_graph n)) with (hop3_link_list n). rewrite hop3_link_list_In by auto.
  cbn [In]. rewrite !pair_eq_iff. lia.
Qed.

Lemma hop3_euler n : 4 <= n ->
  n + length (g_cycles (hop3_graph n)) = length (hop3_link_list n) + 1.
Proof.
  intros Hn. cbn [hop3_graph g_cycles]. rewrite map_length, hop3_cycles_closed, hop3_link_list_length by auto.
  rewrite !app_length, (flat_map_len 2), seq_length by now intros. cbn [length]. lia.
Qed.
