(** graph_laplacian is the combinatorial Laplacian. *)
From Verif Require Import Base BaseLemmas GraphModel GraphSpec GraphProofs Hop3Proofs.
From Coq Require Import ZifyBool.
Set Default Goal Selector "!".
Local Open Scope Z_scope.

Definition b2z (b : bool) : Z := if b then 1 else 0.
Definition inc (l : nat * nat) (c : nat) : Z :=
  b2z (snd l =? c)%nat - b2z (fst l =? c)%nat.

Lemma seq_double n : forall s,
  map (fun k => (k / 2)%nat) (seq (2 * s) (2 * n)) = flat_map (fun k => [k; k]) (seq s n).
Proof.
  induction n as [|n IH]; intros s; [reflexivity|].
  replace (2 * S n)%nat with (S (S (2 * n))) by lia. cbn [seq map flat_map].
  replace (S (S (2 * s)))%nat with (2 * S s)%nat by lia. rewrite IH. cbn [app].
  f_equal; [|f_equal].
  - rewrite Nat.mul_comm. now apply Nat.div_mul.
  - symmetry. apply (Nat.div_unique _ 2 s 1); lia.
Qed.

Lemma lap_rows_eq links : lap_rows links = flat_map (fun k => [k; k]) (seq 0 (length links)).
Proof. unfold lap_rows. change (seq 0 (2 * length links)) with (seq (2 * 0) (2 * length links)). apply seq_double. Qed.

Lemma coo_incidence links : forall s r c,
  sumZ (map (fun t => let '(d, (i, j)) := t in
     if (i =? r)%nat && (j =? c)%nat then d else 0)
     (combine (lap_data links)
       (combine (flat_map (fun k => [k; k]) (seq s (length links))) (lap_cols links))))
  = if (s <=? r)%nat && (r <? s + length links)%nat then inc (nth (r - s) links (0, 0)%nat) c else 0.
Proof.
  induction links as [|l t IH]; intros s r c.
  - cbn [length]. replace ((s <=? r)%nat && (r <? s + 0)%nat) with false by lia. reflexivity.
  - cbn [length seq]. unfold lap_data, lap_cols in *. cbn [flat_map app combine map].
    rewrite !sumZ_cons, IH. unfold inc, b2z.
    destruct (Nat.eqb_spec s r) as [->|Hn]; cbn [andb].
    + replace (r - r)%nat with 0%nat by lia. cbn [nth].
      destruct (Nat.leb_spec (S r) r); [lia|]. cbn [andb].
      destruct (Nat.leb_spec r r); [|lia]. destruct (Nat.ltb_spec r (r + S (length t))); [|lia]. cbn [andb].
      destruct (fst l =? c)%nat, (snd l =? c)%nat; lia.
    + replace (s <=? r)%nat with (S s <=? r)%nat by lia.
      replace (s + S (length t))%nat with (S s + length t)%nat by lia.
      destruct ((S s <=? r)%nat && (r <? S s + length t)%nat) eqn:E; [|lia].
      replace (r - s)%nat with (S (r - S s)) by lia. cbn [nth]. lia.
Qed.

Definition lap_entry (links : list (nat * nat)) (i j : nat) : Z :=
  sumZ (map (fun l => inc l i * inc l j) links).

Lemma lap_product links i j :
  let a := coo_entry (lap_data links) (lap_rows links) (lap_cols links) in
  sumZ (map (fun r => a r i * a r j) (seq 0 (length links))) = lap_entry links i j.
Proof.
  cbv zeta. unfold lap_entry.
  transitivity (sumZ (map (fun r => inc (nth r links (0, 0)%nat) i * inc (nth r links (0, 0)%nat) j)
    (seq 0 (length links)))).
  2:{ rewrite <- (map_map (fun r => nth r links (0, 0)%nat) (fun l => inc l i * inc l j)).
      now rewrite <- list_eq_map_seq. }
  apply sumZ_map_ext. intros r Hr. rewrite in_seq in Hr. unfold coo_entry. rewrite lap_rows_eq.
  rewrite !coo_incidence. replace ((0 <=? r)%nat && (r <? 0 + length links)%nat) with true by lia.
  now rewrite Nat.sub_0_r.
Qed.

Definition lap_n (links : list (nat * nat)) := S (list_max (lap_cols links)).

Lemma laplacian_ok links : links <> [] ->
  graph_laplacian links = Ok (map (fun i => map (lap_entry links i) (seq 0 (lap_n links))) (seq 0 (lap_n links))).
Proof.
  intros H. unfold graph_laplacian. destruct links as [|l t]; [contradiction|]. set (L := l :: t). f_equal.
  fold (lap_n L). apply map_ext. intros i. apply map_ext. intros j. apply lap_product.
Qed.

Lemma lap_n_bound links a b : In (a, b) links -> (a < lap_n links /\ b < lap_n links)%nat.
Proof.
  intros H. unfold lap_n.
  assert (forall x, In x (lap_cols links) -> x <= list_max (lap_cols links))%nat as K.
  { apply Forall_forall, list_max_le. auto. }
  assert (In a (lap_cols links) /\ In b (lap_cols links)) as [Ha Hb].
  { unfold lap_cols. rewrite !in_flat_map. split; exists (a, b); cbn; auto. }
  pose proof (K a Ha). pose proof (K b Hb). lia.
Qed.

Lemma lap_sym links i j : lap_entry links i j = lap_entry links j i.
Proof. unfold lap_entry. apply sumZ_map_ext. intros; lia. Qed.

Lemma sum_b2z_seq n v : sumZ (map (fun j => b2z (v =? j)%nat) (seq 0 n)) = b2z (v <? n)%nat.
Proof.
  induction n as [|n IH]; [reflexivity|].
  rewrite seq_snoc, map_app, sumZ_app, IH. cbn [map]. rewrite sumZ_cons. cbn [sumZ fold_right].
  unfold b2z. destruct (Nat.ltb_spec v n), (Nat.eqb_spec v (0 + n)), (Nat.ltb_spec v (S n)); lia.
Qed.

Lemma lap_rowsum links i : sumZ (map (lap_entry links i) (seq 0 (lap_n links))) = 0.
Proof.
  unfold lap_entry. rewrite sumZ_swap. apply sumZ_map_zero. intros [a b] H.
  rewrite sumZ_map_mul. replace (sumZ _) with 0; [lia|].
  unfold inc. cbn [fst snd].
  transitivity (sumZ (map (fun j => b2z (b =? j)%nat + - b2z (a =? j)%nat) (seq 0 (lap_n links))));
    [|apply sumZ_map_ext; intros; lia].
  rewrite sumZ_map_add, sumZ_map_opp, !sum_b2z_seq.
  apply lap_n_bound in H. unfold b2z.
  destruct (Nat.ltb_spec a (lap_n links)), (Nat.ltb_spec b (lap_n links)); lia.
Qed.

Lemma lap_diag links i : (forall a b, In (a, b) links -> a <> b) ->
  lap_entry links i i = Z.of_nat (degree links i).
Proof.
  unfold lap_entry, degree. induction links as [|[a b] t IH]; intros H; [reflexivity|].
  cbn [map filter]. rewrite sumZ_cons, IH by (intros; apply H; now right).
  specialize (H a b (or_introl eq_refl)). unfold inc, b2z. cbn [fst snd].
  destruct (Nat.eqb_spec a i), (Nat.eqb_spec b i); cbn [orb length]; lia.
Qed.

Lemma lap_off_listed links i j : NoDup links -> (forall a b, In (a, b) links -> (a < b)%nat) ->
  i <> j -> lap_entry links i j = - b2z (if in_dec pair_dec (min i j, max i j) links then true else false).
Proof.
  intros Hn Hlt Hij. unfold lap_entry.
  induction links as [|[a b] t IH]; [reflexivity|].
  inversion Hn as [|? ? Ha Ht]; subst.
  assert (forall a b, In (a, b) t -> (a < b)%nat) as Hlt' by (intros; apply Hlt; now right).
  specialize (IH Ht Hlt'). specialize (Hlt a b (or_introl eq_refl)).
  cbn [map]. rewrite sumZ_cons, IH.
  destruct (in_dec _ _ t) as [H1|H1], (in_dec _ _ ((a, b) :: t)) as [H2|H2]; unfold inc, b2z; cbn [fst snd].
  - assert ((min i j, max i j) <> (a, b)) as N by congruence. rewrite pair_eq_iff in N.
    destruct (Nat.eqb_spec a i), (Nat.eqb_spec b i), (Nat.eqb_spec a j), (Nat.eqb_spec b j); lia.
  - exfalso; apply H2; now right.
  - destruct H2 as [H2|H2]; [|contradiction]. rewrite pair_eq_iff in H2.
    destruct (Nat.eqb_spec a i), (Nat.eqb_spec b i), (Nat.eqb_spec a j), (Nat.eqb_spec b j); lia.
  - assert ((min i j, max i j) <> (a, b)) as N by (intros E; apply H2; left; auto). rewrite pair_eq_iff in N.
    destruct (Nat.eqb_spec a i), (Nat.eqb_spec b i), (Nat.eqb_spec a j), (Nat.eqb_spec b j); lia.
Qed.

Lemma lap_off links i j : NoDup links -> (forall a b, In (a, b) links -> (a < b)%nat) ->
  i <> j ->
  (listed links i j -> lap_entry links i j = -1) /\ (~ listed links i j -> lap_entry links i j = 0).
Proof.
  intros Hn Hlt Hij. rewrite lap_off_listed by auto. unfold listed.
  destruct (in_dec _ _ links) as [H|H]; cbn [b2z]; split; intros K; auto.
  - exfalso. apply K. destruct (Nat.min_spec i j) as [[? E]|[? E]], (Nat.max_spec i j) as [[? E']|[? E']];
      rewrite E, E' in H; auto; lia.
  - exfalso. apply H. destruct K as [K|K]; pose proof (Hlt _ _ K) as L.
    + now rewrite Nat.min_l, Nat.max_r by lia.
    + now rewrite Nat.min_r, Nat.max_l by lia.
Qed.

Local Open Scope Q_scope.

Lemma b2z_sumQ n v (x : nat -> Q) : (v < n)%nat ->
  sumQ (map (fun j => inject_Z (b2z (v =? j)%nat) * x j) (seq 0 n)) == x v.
Proof.
  intros Hv. induction n as [|n IH]; [lia|].
  rewrite seq_snoc, map_app, sumQ_app. cbn [map]. rewrite sumQ_cons, sumQ_nil. cbn [Nat.add].
  destruct (Nat.eq_dec v n) as [->|Hn].
  - rewrite Nat.eqb_refl, sumQ_map_zero; [cbn; ring|].
    intros j Hj. rewrite in_seq in Hj. destruct (Nat.eqb_spec n j); [lia|]. cbn. ring.
  - rewrite IH by lia. destruct (Nat.eqb_spec v n); [lia|]. cbn. ring.
Qed.

Lemma inc_sumQ links a b (x : nat -> Q) : In (a, b) links ->
  sumQ (map (fun j => inject_Z (inc (a, b) j) * x j) (seq 0 (lap_n links))) == x b - x a.
Proof.
  intros H. apply lap_n_bound in H. unfold inc. cbn [fst snd].
  rewrite (sumQ_map_ext _ (fun j => inject_Z (b2z (b =? j)%nat) * x j - inject_Z (b2z (a =? j)%nat) * x j)).
  - rewrite sumQ_map_sub, !b2z_sumQ by lia. reflexivity.
  - intros j _. rewrite inject_Z_sub. ring.
Qed.

Lemma lap_quadratic links (x : nat -> Q) :
  sumQ (map (fun i => sumQ (map (fun j => x i * inject_Z (lap_entry links i j) * x j)
     (seq 0 (lap_n links)))) (seq 0 (lap_n links)))
  == sumQ (map (fun l => (x (snd l) - x (fst l)) * (x (snd l) - x (fst l))) links).
Proof.
  set (n := lap_n links).
  rewrite (sumQ_map_ext _ (fun i => sumQ (map (fun l => sumQ (map (fun j =>
     x i * inject_Z (inc l i) * (inject_Z (inc l j) * x j)) (seq 0 n))) links))).
  - rewrite sumQ_swap. apply sumQ_map_ext. intros [a b] H. cbn [fst snd].
    rewrite (sumQ_map_ext _ (fun i => (x b - x a) * (inject_Z (inc (a, b) i) * x i))).
    + rewrite sumQ_map_mul. unfold n. rewrite inc_sumQ by auto. reflexivity.
    + intros i _. rewrite sumQ_map_mul. unfold n. rewrite inc_sumQ by auto. ring.
  - intros i _. rewrite sumQ_swap. apply sumQ_map_ext. intros j _.
    unfold lap_entry. rewrite <- sumQ_inject, map_map.
    rewrite (Qmult_comm _ (x j)), Qmult_assoc, <- sumQ_map_mul. apply sumQ_map_ext. intros l _.
    rewrite inject_Z_mul. ring.
Qed.
