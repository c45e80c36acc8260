(** Strips of triangles are planar graphs: 0 1 2, 1 3 2, 2 3 4, ... They are what
    a triangulation of two parallel rows of points looks like, and serve as
    concrete cases. *)
From Verif Require Import Base BaseLemmas GraphModel GraphSpec GraphProofs Hop3Proofs.
From Coq Require Import List Sorting.Sorted ZifyBool Lia.
Import ListNotations.
Set Default Goal Selector "!".
Local Open Scope nat_scope.

Definition strip_tri (i : nat) : nat * nat * nat := if Nat.even i then (i, i + 1, i + 2) else (i, i + 2, i + 1).
Definition strip (n : nat) : list (nat * nat * nat) := map strip_tri (seq 0 (n - 2)).

Lemma strip_links n a b : 3 <= n -> In (a, b) (g_links (delaunay n (strip n))) <-> a < b < n /\ b - a <= 2.
Proof.
  intros Hn. cbn [delaunay g_links]. rewrite create_links_In. split.
  - intros ([[x y] z] & I & C). apply in_map_iff in I as (i & E & I). apply in_seq in I. unfold strip_tri in E.
    unfold corner in C. destruct (Nat.even i); injection E as <- <- <-; rewrite !order_points_spec in C;
      destruct C as [C|[C|C]]; injection C as -> ->; lia.
  - intros [H1 H2].
    assert (exists i, i < n - 2 /\ (i <= a /\ b <= i + 2)) as (i & Bi & H) by (destruct (Nat.le_gt_cases (a + 3) n); [exists a|exists (n - 3)]; lia).
    exists (strip_tri i). split; [apply in_map, in_seq; lia|]. unfold strip_tri, corner.
    destruct (Nat.even i); rewrite !order_points_spec.
    + assert (a = i /\ b = i + 1 \/ a = i /\ b = i + 2 \/ a = i + 1 /\ b = i + 2) as [[-> ->]|[[-> ->]|[-> ->]]] by lia.
      * left. f_equal; lia.
      * right. left. f_equal; lia.
      * right. right. f_equal; lia.
    + assert (a = i /\ b = i + 2 \/ a = i /\ b = i + 1 \/ a = i + 1 /\ b = i + 2) as [[-> ->]|[[-> ->]|[-> ->]]] by lia.
      * left. f_equal; lia.
      * right. left. f_equal; lia.
      * right. right. f_equal; lia.
Qed.

Lemma strip_sides n : all_sides (delaunay n (strip n)) = flat_map (fun i => sides (tri_cycle (strip_tri i))) (seq 0 (n - 2)).
Proof. unfold all_sides, strip. cbn [delaunay g_cycles]. generalize (seq 0 (n - 2)). intros l. induction l as [|i l IH]; [reflexivity|]. cbn [map flat_map]. now rewrite IH. Qed.

Lemma even_iff i : Nat.even i = true <-> exists m, i = 2 * m.
Proof. rewrite Nat.even_spec. reflexivity. Qed.
Lemma odd_iff i : Nat.even i = false <-> exists m, i = 2 * m + 1.
Proof. change (exists m, i = 2 * m + 1) with (Nat.Odd i). rewrite <- Nat.odd_spec. unfold Nat.odd. destruct (Nat.even i); cbn; split; congruence. Qed.

Lemma tri_side i a b : In (a, b) (sides (tri_cycle (strip_tri i))) <->
  if Nat.even i then a = i /\ b = i + 1 \/ a = i + 1 /\ b = i + 2 \/ a = i + 2 /\ b = i
  else a = i /\ b = i + 2 \/ a = i + 2 /\ b = i + 1 \/ a = i + 1 /\ b = i.
Proof.
  unfold strip_tri. destruct (Nat.even i); cbn; split; intros H;
    repeat (destruct H as [H|H]; [try (injection H as <- <-); auto|]); try destruct H; subst; auto 6.
Qed.

Lemma flat_map_nodup {A B} (f : A -> list B) l : NoDup l -> (forall a, In a l -> NoDup (f a)) ->
  (forall a a' x, In a l -> In a' l -> In x (f a) -> In x (f a') -> a = a') -> NoDup (flat_map f l).
Proof.
  induction l as [|a l IH]; intros N H D; [constructor|]. apply NoDup_cons_iff in N as [N1 N2]. cbn [flat_map].
  assert (NoDup (flat_map f l)) as Nl by (apply IH; auto with datatypes; intros; eapply D; eauto with datatypes).
  assert (forall x, In x (f a) -> ~ In x (flat_map f l)) as Dj.
  { intros x I J. apply in_flat_map in J as (a' & I' & J). assert (a = a') by (eapply D; eauto with datatypes). subst. contradiction. }
  specialize (H a (or_introl eq_refl)). clear -Nl Dj H. induction (f a) as [|y t IHt]; [auto|]. cbn.
  apply NoDup_cons_iff in H as [H1 H2]. constructor.
  - intros I. apply in_app_or in I as [I|I]; [auto|]. apply (Dj y); auto with datatypes.
  - apply IHt; auto with datatypes.
Qed.

Lemma strip_planar n : 3 <= n -> planar (delaunay n (strip n)).
Proof.
  intros Hn. constructor.
  - cbn. apply sorted_NoDup, create_links_sorted.
  - intros a b H. apply strip_links in H; auto. cbn [delaunay g_npoints]. lia.
  - cbn [delaunay g_npoints]. induction v as [|v IH]; intros Hv; [constructor|]. eapply reach_step; [apply IH; lia|].
    left. apply strip_links; auto. lia.
  - cbn. unfold strip. destruct (n - 2) eqn:E; [lia|]. discriminate.
  - cbn. intros c c' H H'. apply in_map_iff in H as ([[? ?] ?] & <- & _). apply in_map_iff in H' as ([[? ?] ?] & <- & _). reflexivity.
  - cbn. intros c H. apply in_map_iff in H as ([[? ?] ?] & <- & _). cbn. lia.
  - intros a b H. rewrite strip_sides in H. apply in_flat_map in H as (i & I & H). apply in_seq in I. apply tri_side in H.
    rewrite !strip_links by auto. destruct (Nat.even i); lia.
  - rewrite strip_sides. apply flat_map_nodup; [apply seq_NoDup| |].
    + intros i _. unfold strip_tri. destruct (Nat.even i); cbn; repeat constructor; cbn; intros H;
        repeat (destruct H as [H|H]; [injection H; lia|]); destruct H.
    + intros i j [a b] _ _ Hi Hj. apply tri_side in Hi, Hj.
      destruct (Nat.even i) eqn:Ei; [apply even_iff in Ei as [mi Ei]|apply odd_iff in Ei as [mi Ei]];
      (destruct (Nat.even j) eqn:Ej; [apply even_iff in Ej as [mj Ej]|apply odd_iff in Ej as [mj Ej]]); lia.
  - intros a b H. apply strip_links in H; auto. destruct H as [H1 H2].
    assert (exists i, i < n - 2 /\ (i <= a /\ b <= i + 2)) as (i & Bi & H) by (destruct (Nat.le_gt_cases (a + 3) n); [exists a|exists (n - 3)]; lia).
    assert (forall x y, In (x, y) (sides (tri_cycle (strip_tri i))) -> In (x, y) (all_sides (delaunay n (strip n)))) as K.
    { intros x y J. rewrite strip_sides. apply in_flat_map. exists i. split; [apply in_seq; lia|auto]. }
    assert (In (a, b) (sides (tri_cycle (strip_tri i))) \/ In (b, a) (sides (tri_cycle (strip_tri i)))) as [J|J]; [|auto|auto].
    rewrite !tri_side. destruct (Nat.even i); lia.
  - intros f Hc. exists (hop3_phi f). intros a b H. apply strip_links in H as [H1 H2]; auto.
    assert (forall i, (i + 2 < n)%nat -> f i (i + 2)%nat == f i (i + 1)%nat + f (i + 1)%nat (i + 2)%nat)%Q as T.
    { intros i Bi. assert (circQ f (tri_cycle (strip_tri i)) == 0)%Q as E.
      { apply Hc. cbn. apply in_map, in_map, in_seq. lia. }
      unfold strip_tri in E. destruct (Nat.even i); cbn [tri_cycle] in E; rewrite circQ_tri in E.
      - rewrite !along_lt, along_gt in E by lia. lra.
      - rewrite along_lt, !along_gt in E by lia. lra. }
    assert (b = a + 1 \/ b = a + 2) as [->| ->] by lia.
    + rewrite hop3_phi_S. ring.
    + rewrite T by lia. replace (hop3_phi f (a + 2)) with (hop3_phi f (a + 1 + 1)) by (f_equal; lia). rewrite !hop3_phi_S.
      replace (a + 1 + 1)%nat with (a + 2)%nat by lia. ring.
Qed.
