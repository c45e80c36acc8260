(** Proofs about graph construction: sorted sets of links, Hop3Graph. *)
From Verif Require Import Base BaseLemmas GraphModel GraphSpec.
From Coq Require Import ZifyBool.
Set Default Goal Selector "!".

Ltac cases_or := repeat match goal with H : _ \/ _ |- _ => destruct H as [H|H] end.

Ltac ss := repeat (apply SSorted_nil || apply SSorted_cons || apply Forall_nil || apply Forall_cons).

(** * Lexicographic order and sorted sets *)
Lemma pair_ltb_iff p q : pair_ltb p q = true <-> lex_lt p q.
Proof. destruct p, q; unfold pair_ltb, lex_lt; cbn [fst snd].
  rewrite orb_true_iff, andb_true_iff, !Nat.ltb_lt, Nat.eqb_eq. tauto. Qed.

Lemma pair_ltb_niff p q : pair_ltb p q = false <-> ~ lex_lt p q.
Proof. rewrite <- pair_ltb_iff. destruct (pair_ltb p q); split; intuition congruence. Qed.

Lemma lex_trans p q r : lex_lt p q -> lex_lt q r -> lex_lt p r.
Proof. destruct p, q, r; unfold lex_lt; cbn; lia. Qed.
Lemma lex_irrefl p : ~ lex_lt p p.
Proof. destruct p; unfold lex_lt; cbn; lia. Qed.
Lemma lex_total p q : lex_lt p q \/ p = q \/ lex_lt q p.
Proof.
  destruct p as [a b], q as [c d]; unfold lex_lt; cbn.
  destruct (lt_eq_lt_dec a c) as [[H|H]|H], (lt_eq_lt_dec b d) as [[H'|H']|H']; subst; auto; lia.
Qed.

#[global] Instance lex_Trans : RelationClasses.Transitive lex_lt.
Proof. intros p q r. apply lex_trans. Qed.

Lemma set_add_In p l x : In x (set_add p l) <-> x = p \/ In x l.
Proof.
  induction l as [|q t IH]; cbn [set_add]; [cbn; intuition|].
  destruct (pair_ltb p q) eqn:E1; [cbn; intuition|].
  destruct (pair_ltb q p) eqn:E2.
  - cbn. rewrite IH. intuition.
  - apply pair_ltb_niff in E1, E2. destruct (lex_total p q) as [H|[->|H]]; try contradiction.
    cbn. intuition.
Qed.

Lemma set_add_sorted p l : StronglySorted lex_lt l -> StronglySorted lex_lt (set_add p l).
Proof.
  induction 1 as [|q t Hs IH Hq]; cbn [set_add]; [repeat constructor|].
  destruct (pair_ltb p q) eqn:E1; [|destruct (pair_ltb q p) eqn:E2].
  - apply pair_ltb_iff in E1. constructor; [now constructor|]. constructor; auto.
    eapply Forall_impl; [|exact Hq]. intros; eapply lex_trans; eauto.
  - constructor; auto. apply Forall_forall. intros x Hx. apply set_add_In in Hx as [->|Hx].
    + now apply pair_ltb_iff.
    + rewrite Forall_forall in Hq; auto.
  - now constructor.
Qed.

Lemma sorted_NoDup l : StronglySorted lex_lt l -> NoDup l.
Proof.
  induction 1 as [|q t Hs IH Hq]; constructor; auto. intros H.
  rewrite Forall_forall in Hq. exact (lex_irrefl _ (Hq _ H)).
Qed.

(** Two strictly sorted lists with the same elements are equal. *)
Lemma sorted_ext l l' : StronglySorted lex_lt l -> StronglySorted lex_lt l' ->
  (forall x, In x l <-> In x l') -> l = l'.
Proof.
  intros H; revert l'. induction H as [|q t Hs IH Hq]; intros l' H' He.
  - destruct l' as [|x l']; auto. exfalso. apply (He x). now left.
  - destruct H' as [|q' t' Hs' Hq'].
    + exfalso. apply (He q). now left.
    + rewrite Forall_forall in Hq, Hq'.
      assert (q = q') as ->.
      { assert (In q (q' :: t')) as [E|E] by (apply He; now left); auto.
        assert (In q' (q :: t)) as [E'|E'] by (apply He; now left); auto.
        exfalso. apply (lex_irrefl q). eapply lex_trans; [apply Hq|apply Hq']; eauto. }
      f_equal. apply IH; auto. intros x. split; intros Hx.
      * assert (In x (q' :: t')) as [E|E] by (apply He; now right); auto.
        subst. exfalso. exact (lex_irrefl _ (Hq _ Hx)).
      * assert (In x (q' :: t)) as [E|E] by (apply He; now right); auto.
        subst. exfalso. exact (lex_irrefl _ (Hq' _ Hx)).
Qed.

(** * create_links *)
Definition corner (s : nat * nat * nat) (p : nat * nat) : Prop :=
  let '(s0, s1, s2) := s in
  p = order_points (s0, s1) \/ p = order_points (s0, s2) \/ p = order_points (s1, s2).

Lemma create_links_acc simp acc :
  let f := fun arcs s =>
    let '(s0, s1, s2) := s in
    let arcs := set_add (order_points (s0, s1)) arcs in
    let arcs := set_add (order_points (s0, s2)) arcs in
    set_add (order_points (s1, s2)) arcs in
  (forall x, In x (fold_left f simp acc) <-> (exists s, In s simp /\ corner s x) \/ In x acc)
  /\ (StronglySorted lex_lt acc -> StronglySorted lex_lt (fold_left f simp acc)).
Proof.
  intros f. revert acc. induction simp as [|s simp IH]; intros acc; cbn [fold_left].
  - split; [|auto]. intros x; split; [auto|]. intros [(s & [] & _)|]; auto.
  - destruct (IH (f acc s)) as [H1 H2]. split.
    + intros x. rewrite H1. destruct s as [[a b] c]. unfold f at 1; cbn beta iota zeta.
      rewrite !set_add_In. split.
      * intros [(s & Hs & Hc)|H]; [left; exists s; cbn; auto|].
        destruct H as [H|[H|[H|H]]]; auto; left; exists (a, b, c); unfold corner; cbn; auto.
      * intros [(s & [<-|Hs] & Hc)|H]; auto.
        -- unfold corner in Hc. tauto.
        -- left; exists s; auto.
    + intros Ha. apply H2. destruct s as [[a b] c]. unfold f. now repeat apply set_add_sorted.
Qed.

Lemma create_links_In simp x :
  In x (create_links simp) <-> exists s, In s simp /\ corner s x.
Proof.
  unfold create_links. rewrite (proj1 (create_links_acc simp []) x). cbn. intuition.
Qed.

Lemma create_links_sorted simp : StronglySorted lex_lt (create_links simp).
Proof. apply (create_links_acc simp []). constructor. Qed.

Lemma order_points_spec a b : order_points (a, b) = (min a b, max a b).
Proof.
  unfold order_points; cbn. destruct (Nat.leb_spec a b); f_equal; lia.
Qed.

(** * Hop3: closed form of the cycle array *)
Definition hop3_pair (ii : nat) : list (nat * nat * nat) :=
  [(ii, ii + 2, ii + 3); (ii, ii + 3, ii + 1)].

Lemma hop3_fill_loop m : forall a pre r, length pre = 2 * a ->
  fold_left (fun c ii => upd (upd c (2 * ii) (ii, ii + 2, ii + 3)) (2 * ii + 1) (ii, ii + 3, ii + 1))
    (seq a m) (pre ++ repeat (0, 0, 0) (2 * m + r))
  = pre ++ flat_map hop3_pair (seq a m) ++ repeat (0, 0, 0) r.
Proof.
  induction m as [|m IH]; intros a pre r Hp.
  - reflexivity.
  - cbn [seq fold_left flat_map].
    replace (2 * S m + r) with (S (S (2 * m + r))) by lia. cbn [repeat].
    rewrite upd_app_r by lia. replace (2 * a - length pre) with 0 by lia. cbn [upd].
    rewrite upd_app_r by lia. replace (2 * a + 1 - length pre) with 1 by lia. cbn [upd].
    pose proof (IH (S a) (pre ++ hop3_pair a) r) as E.
    rewrite <- !app_assoc in E. cbn [hop3_pair app] in E. rewrite E; [reflexivity|].
    rewrite app_length. cbn. lia.
Qed.

Lemma hop3_cycles_closed n : 4 <= n ->
  hop3_cycles n = [(0, 1, 2); (0, 2, 3)] ++ flat_map hop3_pair (seq 1 (n - 4))
                  ++ [(n - 3, n - 1, n - 2)].
Proof.
  intros Hn. unfold hop3_cycles. cbv zeta.
  replace (3 + (n - 4) * 2) with (S (S (2 * (n - 4) + 1))) by lia. cbn [repeat upd].
  change ((0, 1, 2) :: (0, 2, 3) :: repeat (0, 0, 0) (2 * (n - 4) + 1))
    with ([(0, 1, 2); (0, 2, 3)] ++ repeat (0, 0, 0) (2 * (n - 4) + 1)).
  replace (n - 3 - 1) with (n - 4) by lia.
  rewrite hop3_fill_loop by reflexivity. cbn [repeat].
  rewrite app_assoc.
  assert (length ([(0, 1, 2); (0, 2, 3)] ++ flat_map hop3_pair (seq 1 (n - 4)))
          = 2 + 2 * (n - 4)) as HL.
  { rewrite app_length. rewrite (flat_map_len 2); [|now intros].
    rewrite seq_length. cbn [length]. lia. }
  rewrite upd_app_r by (rewrite HL; lia). rewrite HL.
  replace (S (S (2 * (n - 4) + 1)) - 1 - (2 + 2 * (n - 4))) with 0 by lia.
  cbn [upd]. now rewrite app_assoc.
Qed.

Lemma hop3_cycles_In n s : 4 <= n ->
  In s (hop3_cycles n) <->
  s = (0, 1, 2) \/ s = (0, 2, 3) \/ s = (n - 3, n - 1, n - 2) \/
  exists ii, 1 <= ii < n - 3 /\ (s = (ii, ii + 2, ii + 3) \/ s = (ii, ii + 3, ii + 1)).
Proof.
  intros Hn. rewrite hop3_cycles_closed by auto. rewrite !in_app_iff, in_flat_map. cbn [In]. split.
  - intros [[H|[H|[]]]|[(ii & Hi & H)|[H|[]]]]; auto.
    rewrite in_seq in Hi. right; right; right. exists ii. split; [lia|]. cbn in H. intuition.
  - intros [H|[H|[H|(ii & Hi & H)]]]; auto.
    right; left. exists ii. rewrite in_seq. split; [lia|]. cbn. intuition.
Qed.

Definition hop3_link_list (n : nat) : list (nat * nat) :=
  flat_map (fun i => [(i, i + 1); (i, i + 2); (i, i + 3)]) (seq 0 (n - 3))
  ++ [(n - 3, n - 2); (n - 3, n - 1); (n - 2, n - 1)].

Lemma hop3_link_list_In n a b : 4 <= n ->
  In (a, b) (hop3_link_list n) <-> a < b < n /\ b - a <= 3.
Proof.
  intros Hn. unfold hop3_link_list. rewrite in_app_iff, in_flat_map. split.
  - intros [(i & Hi & H)|H]; [rewrite in_seq in Hi|]; cbn in H;
      repeat (destruct H as [H|H]; [injection H as <- <-; lia|]); destruct H.
  - intros H. destruct (le_lt_dec (n - 3) a) as [Ha|Ha].
    + right. cbn.
      assert (a = n - 3 /\ b = n - 2 \/ a = n - 3 /\ b = n - 1 \/ a = n - 2 /\ b = n - 1)
        as [[-> ->]|[[-> ->]|[-> ->]]] by lia; auto.
    + left. exists a. rewrite in_seq. split; [lia|]. cbn.
      assert (b = a + 1 \/ b = a + 2 \/ b = a + 3) as [->|[->| ->]] by lia; auto.
Qed.

Lemma StronglySorted_app l1 l2 : StronglySorted lex_lt l1 -> StronglySorted lex_lt l2 ->
  (forall x y, In x l1 -> In y l2 -> lex_lt x y) -> StronglySorted lex_lt (l1 ++ l2).
Proof.
  induction 1 as [|q t Hs IH Hq]; intros H2 H; cbn; auto. constructor.
  - apply IH; auto. intros; apply H; cbn; auto.
  - apply Forall_app; split; auto. apply Forall_forall. intros; apply H; cbn; auto.
Qed.

Lemma hop3_link_list_sorted n : 4 <= n -> StronglySorted lex_lt (hop3_link_list n).
Proof.
  intros Hn. unfold hop3_link_list. apply StronglySorted_app.
  - clear Hn. enough (forall m s, StronglySorted lex_lt
      (flat_map (fun i => [(i, i + 1); (i, i + 2); (i, i + 3)]) (seq s m))) as K by apply K.
    induction m as [|m IH]; intros s; cbn [seq flat_map]; [constructor|].
    apply StronglySorted_app.
    + ss; unfold lex_lt; cbn; lia.
    + apply IH.
    + intros x y Hx Hy. apply in_flat_map in Hy as (i & Hi & Hy). rewrite in_seq in Hi.
      cbn in Hx, Hy. unfold lex_lt.
      cases_or; subst; cbn; try lia; contradiction.
  - ss; unfold lex_lt; cbn; lia.
  - intros x y Hx Hy. apply in_flat_map in Hx as (i & Hi & Hx). rewrite in_seq in Hi.
    cbn in Hx, Hy. unfold lex_lt. cases_or; subst; cbn; try lia; contradiction.
Qed.

Lemma hop3_link_list_length n : 4 <= n -> length (hop3_link_list n) = 3 * n - 6.
Proof.
  intros Hn. unfold hop3_link_list. rewrite app_length.
  rewrite (flat_map_len 3); [|now intros]. rewrite seq_length. cbn. lia.
Qed.

Ltac pair_lia := (f_equal; lia).

Lemma hop3_links_In n a b : 4 <= n ->
  In (a, b) (create_links (hop3_cycles n)) <-> a < b < n /\ b - a <= 3.
Proof.
  intros Hn. rewrite create_links_In. split.
  - intros (s & Hs & Hc). apply hop3_cycles_In in Hs; auto.
    destruct Hs as [->|[->|[->|(ii & Hi & [->| ->])]]];
      unfold corner in Hc; rewrite !order_points_spec in Hc;
      destruct Hc as [Hc|[Hc|Hc]]; injection Hc as -> ->; lia.
  - intros H. unfold corner.
    assert (forall s0 s1 s2, In (s0, s1, s2) (hop3_cycles n) ->
      (a = min s0 s1 /\ b = max s0 s1) \/ (a = min s0 s2 /\ b = max s0 s2)
      \/ (a = min s1 s2 /\ b = max s1 s2) ->
      exists s, In s (hop3_cycles n) /\ (let '(s0, s1, s2) := s in
        (a, b) = order_points (s0, s1) \/ (a, b) = order_points (s0, s2)
        \/ (a, b) = order_points (s1, s2))) as K.
    { intros s0 s1 s2 Hin Hor. exists (s0, s1, s2). split; auto. rewrite !order_points_spec.
      destruct Hor as [[-> ->]|[[-> ->]|[-> ->]]]; auto. }
    destruct (Nat.eq_dec a 0) as [->|Ha0].
    { destruct (Nat.eq_dec b 3) as [->|Hb].
      - apply (K 0 2 3); [apply hop3_cycles_In; auto|lia].
      - apply (K 0 1 2); [apply hop3_cycles_In; auto|lia]. }
    destruct (le_lt_dec (n - 3) a) as [Ha|Ha].
    + apply (K (n - 3) (n - 1) (n - 2)); [apply hop3_cycles_In; auto|lia].
    + assert (b = a + 1 \/ b = a + 2 \/ b = a + 3) as [E|[E|E]] by lia.
      * apply (K a (a + 3) (a + 1)); [|lia]. apply hop3_cycles_In; auto.
        do 3 right. exists a. split; [lia|auto].
      * apply (K a (a + 2) (a + 3)); [|lia]. apply hop3_cycles_In; auto.
        do 3 right. exists a. split; [lia|auto].
      * apply (K a (a + 2) (a + 3)); [|lia]. apply hop3_cycles_In; auto.
        do 3 right. exists a. split; [lia|auto].
Qed.

Lemma hop3_links_closed n : 4 <= n -> create_links (hop3_cycles n) = hop3_link_list n.
Proof.
  intros Hn. apply sorted_ext.
  - apply create_links_sorted.
  - now apply hop3_link_list_sorted.
  - intros [a b]. now rewrite hop3_links_In, hop3_link_list_In.
Qed.

Lemma hop3_ok n : 4 <= n ->
  hop3 (Z.of_nat n) = Ok (Graph n (hop3_link_list n) (map tri_cycle (hop3_cycles n))).
Proof.
  intros Hn. unfold hop3. destruct (Z.ltb_spec (Z.of_nat n) 4); [lia|].
  rewrite Nat2Z.id. cbv zeta. rewrite hop3_links_closed by auto.
  rewrite hop3_link_list_length by auto. now rewrite Nat.eqb_refl.
Qed.

(** * Hop3: sides and planarity *)
Definition hop3_graph n := Graph n (hop3_link_list n) (map tri_cycle (hop3_cycles n)).

Definition hop3_sides (n : nat) : list (nat * nat) :=
  [(0,1); (1,2); (2,0); (0,2); (2,3); (3,0)]
  ++ flat_map (fun ii => [(ii,ii+2); (ii+2,ii+3); (ii+3,ii); (ii,ii+3); (ii+3,ii+1); (ii+1,ii)])
       (seq 1 (n - 4))
  ++ [(n-3,n-1); (n-1,n-2); (n-2,n-3)].

Lemma hop3_all_sides n : 4 <= n -> all_sides (hop3_graph n) = hop3_sides n.
Proof.
  intros Hn. unfold all_sides, hop3_graph, hop3_sides. cbn [g_cycles].
  rewrite hop3_cycles_closed by auto. rewrite !map_app, !flat_map_app. f_equal. f_equal.
  generalize (seq 1 (n - 4)) as l. induction l as [|x l IH]; [reflexivity|].
  cbn [flat_map map app hop3_pair tri_cycle]. rewrite IH. reflexivity.
Qed.

Lemma hop3_sides_In n a b : 4 <= n ->
  In (a, b) (hop3_sides n) <->
  (a < b < n /\ b - a <= 3 /\ (a, b) <> (0, 3)) \/
  (b < a < n /\ a - b <= 3 /\ (b, a) <> (0, 1) /\ (b, a) <> (1, 3)).
Proof.
  intros Hn. unfold hop3_sides. rewrite !in_app_iff, in_flat_map.
  assert (forall x y u v : nat, (x, y) = (u, v) <-> x = u /\ y = v) as P.
  { intros; split; [intros E; injection E; auto|intros [-> ->]; auto]. }
  rewrite !P. cbn [In]. rewrite !P. split.
  - intros [H|[(ii & Hi & H)|H]]; [|rewrite in_seq in Hi; cbn [In] in H; rewrite !P in H|]; lia.
  - intros H.
    assert (forall ii, 1 <= ii < n - 3 ->
      (a = ii /\ b = ii+2 \/ a = ii+2 /\ b = ii+3 \/ a = ii+3 /\ b = ii \/ a = ii /\ b = ii+3
       \/ a = ii+3 /\ b = ii+1 \/ a = ii+1 /\ b = ii) ->
      exists x, In x (seq 1 (n - 4)) /\
       In (a, b) [(x,x+2); (x+2,x+3); (x+3,x); (x,x+3); (x+3,x+1); (x+1,x)]) as K.
    { intros ii Hi Hc. exists ii. rewrite in_seq. split; [lia|]. cbn [In]. rewrite !P. lia. }
    destruct H as [(H & H' & Hx)|(H & H' & H2 & H3)].
    + destruct (Nat.eq_dec a 0) as [->|]; [left; lia|].
      assert (b = a + 1 \/ b = a + 2 \/ b = a + 3) as [E|[E|E]] by lia.
      * destruct (le_lt_dec a 2) as [L|L]; [left; lia|]. right; left. apply (K (a - 2)); lia.
      * destruct (Nat.eq_dec a (n - 3)) as [->|]; [right; right; lia|].
        right; left. apply (K a); lia.
      * right; left. apply (K a); lia.
    + destruct (Nat.eq_dec b 0) as [->|]; [left; lia|].
      assert (a = b + 1 \/ a = b + 2 \/ a = b + 3) as [E|[E|E]] by lia.
      * destruct (le_lt_dec (n - 3) b) as [L|L]; [right; right; lia|].
        right; left. apply (K b); lia.
      * right; left. apply (K (b - 1)); lia.
      * right; left. apply (K b); lia.
Qed.
