(** Proofs about the Dirichlet solvers. *)
From Verif Require Import Base BaseLemmas GraphModel GraphSpec BulkModel DirichletModel DirichletSpec
  LaplacianProofs PoolProofs BulkProofs.
From Coq Require Import List ZifyBool.
Import ListNotations.
Set Default Goal Selector "!".
Local Open Scope Q_scope.

(** ** Selecting and scattering *)
Definition count (mask : list bool) : nat := length (sel mask mask).

Lemma sel_length {A} mask : forall l : list A, length l = length mask -> length (sel mask l) = count mask.
Proof.
  unfold count. induction mask as [|[] m IH]; intros [|x l] H; cbn in *; try discriminate; auto.
Qed.

Lemma put_length {A} mask : forall (v base : list A), length (put mask v base) = length base.
Proof.
  induction mask as [|[] m IH]; intros v [|b base]; cbn; auto. destruct v; cbn; auto.
Qed.

Lemma sel_put {A} mask : forall (v base : list A), length base = length mask -> length v = count mask ->
  sel mask (put mask v base) = v.
Proof.
  unfold count. induction mask as [|[] m IH]; intros v [|b base] H Hv; cbn in *; try discriminate.
  - now destruct v.
  - destruct v as [|x v]; [discriminate|]. cbn in *. now rewrite IH by lia.
  - now rewrite IH by lia.
Qed.

Lemma sel_off_put {A} mask : forall v base : list A,
  sel (off mask) (put mask v base) = sel (off mask) base.
Proof.
  induction mask as [|[] m IH]; intros v [|b base]; cbn; auto.
  - destruct v; cbn; apply IH.
  - now rewrite IH.
Qed.

Lemma off_length mask : length (off mask) = length mask.
Proof. apply map_length. Qed.

Lemma off_off mask : off (off mask) = mask.
Proof. unfold off. rewrite map_map. rewrite (map_ext _ (fun x => x)) by (now intros []). apply map_id. Qed.

Lemma put_masked {A} mask (xf base : list A) : forall i d, length xf = length mask -> length base = length mask ->
  masked mask i -> nth i (put mask (sel mask xf) base) d = nth i xf d.
Proof.
  unfold masked. revert xf base. induction mask as [|b m IH]; intros [|x xf] [|y base] i d H1 H2 Hi;
    cbn in *; try discriminate.
  - now destruct i.
  - destruct b; cbn.
    + destruct i; [auto|]. apply IH; auto.
    + destruct i; [discriminate|]. apply IH; auto.
Qed.

Lemma put_free {A} mask (v base : list A) : forall i d, free mask i ->
  nth i (put mask v base) d = nth i base d.
Proof.
  unfold free. revert v base. induction mask as [|b m IH]; intros v base i d Hi.
  - reflexivity.
  - destruct base as [|y base]; [now destruct b|]. destruct b; cbn in *.
    + destruct i; [discriminate|]. destruct v; cbn; now apply IH.
    + destruct i; [auto|]. cbn. now apply IH.
Qed.

Lemma masked_off_free mask i : masked mask i -> free (off mask) i.
Proof.
  unfold masked, free. revert i. induction mask as [|b m IH]; intros [|i] H; cbn in *; try discriminate; auto.
  now rewrite H.
Qed.

(** Position of a selected point among the selected ones. *)
Lemma masked_pos mask : forall i, masked mask i ->
  exists k, (k < count mask)%nat /\ forall (A : Type) (l : list A) d, length l = length mask -> nth k (sel mask l) d = nth i l d.
Proof.
  unfold count, masked. induction mask as [|b m IH]; intros i Hi; [destruct i; discriminate|].
  destruct b.
  - destruct i as [|i].
    + exists 0%nat. split; [cbn; lia|]. intros A [|y l] d H; [discriminate|]. reflexivity.
    + destruct (IH i Hi) as (k & L & E). exists (S k). split; [cbn; lia|].
      intros A [|y l] d H; [discriminate|]. cbn. apply E. cbn in H; lia.
  - destruct i as [|i]; [discriminate|]. destruct (IH i Hi) as (k & L & E). exists k. split; [auto|].
    intros A [|y l] d H; [discriminate|]. cbn. apply E. cbn in H; lia.
Qed.

Lemma free_lt mask i : free mask i -> (i < length mask)%nat.
Proof. unfold free. intros H. destruct (Nat.lt_ge_cases i (length mask)); [auto|]. now rewrite nth_overflow in H. Qed.
Lemma masked_lt mask i : masked mask i -> (i < length mask)%nat.
Proof. unfold masked. intros H. destruct (Nat.lt_ge_cases i (length mask)); [auto|]. now rewrite nth_overflow in H. Qed.
Lemma free_off_masked mask i : free mask i -> masked (off mask) i.
Proof.
  intros H. pose proof (free_lt _ _ H) as L. unfold free, masked in *. unfold off.
  rewrite (map_nth' _ _ _ true) by auto. now rewrite H.
Qed.
Lemma split_point mask i : (i < length mask)%nat -> masked mask i \/ free mask i.
Proof.
  intros H. unfold masked, free. rewrite (nth_indep mask true false H). destruct (nth i mask false); auto.
Qed.

(** ** Dot products *)
Lemma dot_split mask : forall a x, length a = length mask -> length x = length mask ->
  dotQ a x == dotQ (sel mask a) (sel mask x) + dotQ (sel (off mask) a) (sel (off mask) x).
Proof.
  induction mask as [|b m IH]; intros [|p a] [|q x] Ha Hx; cbn [length] in *; try discriminate; [reflexivity|].
  destruct b; cbn [sel off map negb]; rewrite !dotQ_cons; change (map negb m) with (off m); rewrite (IH a x) by lia; ring.
Qed.

Lemma dot_nth a x : length a = length x ->
  dotQ a x == sumQ (map (fun j => nth j a 0 * nth j x 0) (seq 0 (length x))).
Proof.
  intros H. unfold dotQ. rewrite (list_eq_map_seq (combine a x) (0, 0)), map_map.
  rewrite combine_length, H, Nat.min_id. apply sumQ_map_ext. intros j Hj. apply in_seq in Hj.
  rewrite (combine_nth' _ _ _ 0 0) by auto. reflexivity.
Qed.

Lemma mat_vec_apply m x i : (i < length m)%nat -> length (nth i m []) = length x ->
  nth i (mat_vec m x) 0 == applyQ m x i.
Proof.
  intros Hi Hr. unfold mat_vec. rewrite (map_nth' _ _ _ []) by auto. now apply dot_nth.
Qed.

Lemma square_spec {A} (a : list (list A)) : is_square a = true <-> forall row, In row a -> length row = length a.
Proof.
  unfold is_square. rewrite forallb_forall. split; intros H row Hr; specialize (H row Hr); lia.
Qed.

Section Block.
  Context (a : list (list Q)) (mask : list bool).
  Hypothesis Ha : forall row, In row a -> length row = length a.
  Hypothesis Hm : length mask = length a.

  Lemma rows_sel_length : forall r, In r (map (sel (off mask)) a) -> length r = count (off mask).
  Proof.
    intros r H. apply in_map_iff in H as (row & <- & Hr). apply sel_length. rewrite off_length, (Ha row Hr). auto.
  Qed.

  Lemma block_length : length (free_block mask a) = count (off mask).
  Proof. apply sel_length. now rewrite map_length, off_length. Qed.

  (** The equation of a free point in the reduced system. *)
  Lemma reduced_system (x c rhs : list Q) : length x = length a -> length rhs = length a ->
    (forall i, (i < length a)%nat ->
       nth i rhs 0 == nth i c 0 - dotQ (sel mask (nth i a [])) (sel mask x)) ->
    solves (free_block mask a) (sel (off mask) rhs) (sel (off mask) x) ->
    solves_off a c x mask.
  Proof.
    intros Hx Lr Hr [_ Hs] i Hi. pose proof (free_lt _ _ Hi) as Li.
    assert (length (sel (off mask) rhs) = count (off mask)) as Ls by (apply sel_length; rewrite off_length; lia).
    destruct (masked_pos (off mask) i (free_off_masked _ _ Hi)) as (q & Lq & E).
    rewrite off_length in E. specialize (Hs q ltac:(lia)). rewrite E in Hs by lia.
    assert (applyQ (free_block mask a) (sel (off mask) x) q ==
            dotQ (sel (off mask) (nth i a [])) (sel (off mask) x)) as B.
    { unfold applyQ. rewrite dot_nth.
      - unfold free_block. rewrite E by (rewrite map_length; auto).
        rewrite (map_nth' _ a _ []) by lia. reflexivity.
      - rewrite !sel_length; auto; rewrite off_length; [lia|]. rewrite Ha by (apply nth_In; lia). auto. }
    rewrite B in Hs. rewrite Hr in Hs by lia.
    assert (length (nth i a []) = length a) as Lrow by (apply Ha, nth_In; lia).
    unfold applyQ. rewrite <- dot_nth by lia. rewrite (dot_split mask) by lia. rewrite Hs. ring.
  Qed.

  Lemma block_entry k l : (k < count (off mask))%nat -> (l < count (off mask))%nat ->
    exists i j, free mask i /\ free mask j /\ entry (free_block mask a) k l = entry a i j /\
                entry (free_block mask a) l k = entry a j i /\ (k = l -> i = j).
  Proof.
    assert (forall m k, (k < count m)%nat -> exists i, masked m i /\
      forall (A : Type) (l : list A) d, length l = length m -> nth k (sel m l) d = nth i l d) as P.
    { clear. intros m. unfold count, masked. induction m as [|[] m IH]; intros k Hk; cbn in Hk; [lia| |].
      - destruct k as [|k].
        + exists 0%nat. split; [auto|]. intros A [|y l] d H; [discriminate|]. reflexivity.
        + destruct (IH k ltac:(lia)) as (i & M & E). exists (S i).
          split; [auto|]. intros A [|y l] d H; [discriminate|]. cbn. apply E. cbn in H; lia.
      - destruct (IH k Hk) as (i & M & E). exists (S i).
        split; [auto|]. intros A [|y l] d H; [discriminate|]. cbn. apply E. cbn in H; lia. }
    intros Hk Hl. destruct (P _ _ Hk) as (i & Mi & Ei). destruct (P _ _ Hl) as (j & Mj & Ej).
    rewrite off_length in Ei, Ej.
    pose proof (masked_off_free _ _ Mi) as Fi. pose proof (masked_off_free _ _ Mj) as Fj. rewrite off_off in Fi, Fj.
    pose proof (free_lt _ _ Fi) as Li. pose proof (free_lt _ _ Fj) as Lj.
    exists i, j. split; [auto|]. split; [auto|]. unfold entry, free_block.
    rewrite Ei, Ej by (rewrite map_length; auto). rewrite !(map_nth' _ a _ []) by lia.
    rewrite Ej, Ei by (rewrite Ha by (apply nth_In; lia); auto). split; [auto|]. split; [auto|].
    intros <-. clear -Ei Ej Li Lj. specialize (Ei _ (seq 0 (length mask)) 0%nat). specialize (Ej _ (seq 0 (length mask)) 0%nat).
    rewrite seq_length in *. rewrite seq_nth in Ei, Ej by auto. specialize (Ei eq_refl). specialize (Ej eq_refl). lia.
  Qed.
End Block.

Lemma applyQ_zeros m n i : applyQ m (repeat 0 n) i == 0.
Proof. unfold applyQ. apply sumQ_map_zero. intros j _. rewrite nth_repeat. ring. Qed.

Lemma all_zero_spec v : all_zero v = true <-> forall x, In x v -> x == 0.
Proof. unfold all_zero. rewrite forallb_forall. split; intros H x Hx; apply Qeq_bool_iff; now apply H. Qed.

Lemma all_zero_nth v i : all_zero v = true -> nth i v 0 == 0.
Proof.
  intros H. rewrite all_zero_spec in H. destruct (nth_in_or_default i v 0) as [I|E]; [auto|now rewrite E].
Qed.

Lemma solves_zeros m r n : n = length r -> all_zero r = true -> solves m r (repeat 0 n).
Proof.
  intros -> H. split; [now rewrite repeat_length|]. intros i Hi. rewrite applyQ_zeros, all_zero_nth by auto. reflexivity.
Qed.

Section Fixed.
  Context (cg : list (list Q) -> list Q -> list Q) (ilu : list (list Q) -> bool).

  Lemma row_ok logging a mask xf x : length xf = length mask ->
    dirichlet_row cg logging a mask xf = Ok x ->
    length x = length mask /\ (forall i d, masked mask i -> nth i x d = nth i xf d) /\
    exists v, x = put (off mask) v xf.
  Proof.
    intros Hx. unfold dirichlet_row. destruct (negb _); [discriminate|].
    assert (forall v, Ok (put (off mask) v xf) = Ok x ->
      length x = length mask /\ (forall i d, masked mask i -> nth i x d = nth i xf d) /\
      exists v, x = put (off mask) v xf) as K.
    { intros v E. injection E as <-. split; [now rewrite put_length|]. split; [|eauto].
      intros i d Hi. apply put_free. now apply masked_off_free. }
    destruct (_ && logging); apply K.
  Qed.

  Lemma row_solves logging a mask xf x : (forall row, In row a -> length row = length a) ->
    length mask = length a -> length xf = length mask ->
    (forall r, length r = count (off mask) -> solves (free_block mask a) r (cg (free_block mask a) r)) ->
    dirichlet_row cg logging a mask xf = Ok x -> solves_off a (repeat 0 (length a)) x mask.
  Proof.
    intros Ha Hm Hx Hcg H. pose proof H as H0. apply row_ok in H0 as (Lx & Mx & _); [|auto].
    unfold dirichlet_row in H. set (b0 := map (fun row => - dotQ (sel mask row) (sel mask xf)) a) in *.
    assert (length b0 = length a) as Lb by apply map_length.
    assert (length (sel (off mask) b0) = count (off mask)) as Ls by (apply sel_length; rewrite off_length; lia).
    destruct (negb _); [discriminate|].
    assert (exists v, solves (free_block mask a) (sel (off mask) b0) v /\ x = put (off mask) v xf) as (v & Sv & ->).
    { destruct (_ && logging) eqn:E.
      - exists (repeat 0 (length (free_block mask a))). split; [|congruence]. apply solves_zeros.
        + rewrite block_length by auto. auto.
        + apply andb_prop in E as [E _]. apply orb_prop in E as [E|E]; [|auto].
          apply all_zero_spec. intros y Hy. rewrite forallb_forall in E.
          assert (forall (A : Type) m (l : list A) z, In z (sel m l) -> In z l) as S.
          { clear. intros A m. induction m as [|[] m IH]; intros [|h l] z Hz; cbn in *; try easy.
            - destruct Hz; [now left|]. right. now apply IH.
            - right. now apply IH. }
          apply S in Hy. apply in_map_iff in Hy as (row & <- & Hr). specialize (E row Hr).
          rewrite all_zero_spec in E.
          assert (dotQ (sel mask row) (sel mask xf) == 0) as ->; [|reflexivity].
          unfold dotQ. apply sumQ_map_zero. intros [p q] Hp. apply in_combine_l in Hp. apply S in Hp.
          cbn. rewrite (E p Hp). ring.
      - exists (cg (free_block mask a) (sel (off mask) b0)). split; [apply Hcg; auto|congruence]. }
    pose proof Sv as [Lv _].
    apply (reduced_system a mask Ha Hm _ _ b0).
    - congruence.
    - auto.
    - intros i Hi. unfold b0. rewrite (map_nth' _ a _ []) by auto. rewrite nth_repeat.
      pose proof (sel_off_put (off mask) v xf) as E. rewrite off_off in E. rewrite E. ring.
    - rewrite sel_put; auto; [now rewrite off_length|congruence].
  Qed.

  Lemma graph_ok logging a nc xf mask c : dirichlet_graph cg ilu logging a nc xf mask = Ok c ->
    (forall row, In row a -> length row = length a) /\ length a = nc /\ length c = length xf /\
    forall k, (k < length xf)%nat -> dirichlet_row cg logging a mask (nth k xf []) = Ok (nth k c []).
  Proof.
    unfold dirichlet_graph. destruct (is_square a) eqn:ES; [|discriminate].
    destruct (Nat.eqb_spec (length a) nc) as [En|]; [|discriminate]. cbn [negb].
    destruct (negb _); [discriminate|]. intros H. apply map_res_nth in H as [L H].
    split; [now apply square_spec|]. split; [auto|]. split; [auto|]. intros k Hk. now apply H.
  Qed.

  Lemma dirichlet_fixed k logging a b xf mask x r : length xf = length mask ->
    dirichlet cg ilu k logging a b xf mask = Ok (x, r) ->
    length x = length mask /\ (forall i d, masked mask i -> nth i x d = nth i xf d) /\ r = subQ b (mat_vec a x).
  Proof.
    intros Hx. unfold dirichlet. destruct (negb _); [discriminate|].
    destruct (l2_min_cg _ _ _ _ _ _ _ _) as [sol|]; [|discriminate]. cbn [bind].
    intros E. injection E as <- <-. split; [now rewrite !put_length, repeat_length|]. split; [|auto].
    intros i d Hi. apply put_masked; auto. now rewrite put_length, repeat_length.
  Qed.

  Lemma dirichlet_solves k logging a b xf mask x r :
    length mask = length a -> length xf = length a -> length b = length a ->
    (forall i j, entry a i j == entry a j i) -> (forall i, free mask i -> ~ entry a i i == 0) ->
    (forall r, length r = count (off mask) -> solves (free_block mask a) r (cg (free_block mask a) r)) ->
    dirichlet cg ilu k logging a b xf mask = Ok (x, r) ->
    solves_off a b x mask /\ forall i, free mask i -> nth i r 0 == 0.
  Proof.
    intros Hm Hx Hb Hsym Hdiag Hcg H. pose proof H as H0. apply dirichlet_fixed in H0 as (Lx & Mx & Er); [|lia].
    unfold dirichlet in H. destruct (is_square a) eqn:ES; [|discriminate]. cbn [negb] in H.
    rewrite square_spec in ES. set (rhs := subQ b _) in *.
    assert (length rhs = length a) as Lr by (unfold rhs, subQ; rewrite map_length, combine_length, map_length; lia).
    assert (length (sel (off mask) rhs) = count (off mask)) as Ls by (apply sel_length; rewrite off_length; lia).
    destruct (l2_min_cg _ _ _ _ _ _ _ _) as [sol|] eqn:EL; [|discriminate]. cbn [bind] in H. injection H as Ex _.
    assert (solves_off a b x mask) as So.
    { assert (solves (free_block mask a) (sel (off mask) rhs) (fst sol)) as Sv.
      { unfold l2_min_cg in EL. destruct (negb _); [discriminate|].
        pose proof (block_length a mask Hm) as Lblk.
        destruct (size_zero _ _ _) eqn:EZ.
        - injection EL as <-. cbn [fst]. rewrite Lblk. destruct (count (off mask)) as [|n] eqn:EC.
          + split; [cbn; congruence|]. intros i Hi. lia.
          + exfalso. destruct (block_entry a mask ES Hm 0 0) as (i & j & Fi & _ & E & _ & Eij); [lia|lia|].
            rewrite <- (Eij eq_refl) in E. apply (Hdiag i Fi). rewrite <- E. unfold entry.
            destruct k; cbn [size_zero] in EZ; [|lia].
            apply all_zero_nth. rewrite forallb_forall in EZ. apply EZ, nth_In. lia.
        - destruct (all_zero (sel (off mask) rhs)) eqn:EB.
          + injection EL as <-. apply solves_zeros; cbn [fst]; congruence.
          + assert (symmetric (free_block mask a) = true) as Sy.
            { unfold symmetric. rewrite Lblk. apply forallb_forall. intros k0 Hk. apply in_seq in Hk.
              apply forallb_forall. intros l Hl. apply in_seq in Hl. apply Qeq_bool_iff.
              destruct (block_entry a mask ES Hm k0 l) as (i & j & _ & _ & -> & -> & _); [lia|lia|]. apply Hsym. }
            rewrite Sy, Nat.eqb_refl in EL. destruct (ilu _); [|discriminate]. injection EL as <-. now apply Hcg. }
      pose proof Sv as [Lv _].
      assert (sel (off mask) x = fst sol) as Eo.
      { rewrite <- Ex, sel_off_put. apply sel_put; [rewrite repeat_length, off_length; lia|congruence]. }
      assert (sel mask x = sel mask xf) as Em.
      { rewrite <- Ex. apply sel_put; [rewrite put_length, repeat_length; lia|apply sel_length; lia]. }
      apply (reduced_system a mask ES Hm _ _ rhs); [lia|auto| |now rewrite Eo].
      intros i Hi. unfold rhs, subQ. rewrite (map_nth' _ _ _ (0, 0)) by (rewrite combine_length, map_length; lia).
      rewrite (combine_nth' _ _ _ 0 0) by (rewrite map_length; lia). cbn [fst snd].
      rewrite (map_nth' _ a _ []) by auto. rewrite Em. reflexivity. }
    split; [exact So|]. intros i Hi. pose proof (free_lt _ _ Hi) as Li. rewrite Er. unfold subQ.
    rewrite (map_nth' _ _ _ (0, 0)) by (unfold mat_vec; rewrite combine_length, map_length; lia).
    rewrite (combine_nth' _ _ _ 0 0) by (unfold mat_vec; rewrite map_length; lia). cbn [fst snd].
    rewrite mat_vec_apply by (rewrite ?(ES (nth i a [])) by (apply nth_In; lia); lia).
    rewrite (So i Hi). ring.
  Qed.
End Fixed.

(** ** Graph Laplacians *)
Definition lapQ (links : list (nat * nat)) : list (list Q) :=
  map (fun i => map (fun j => inject_Z (lap_entry links i j)) (seq 0 (lap_n links))) (seq 0 (lap_n links)).

Lemma lapQ_length links : length (lapQ links) = lap_n links.
Proof. unfold lapQ. now rewrite map_length, seq_length. Qed.
Lemma lapQ_rows links row : In row (lapQ links) -> length row = length (lapQ links).
Proof.
  rewrite lapQ_length. intros H. apply in_map_iff in H as (i & <- & _). now rewrite map_length, seq_length.
Qed.
Lemma lapQ_entry links i j : (i < lap_n links)%nat -> (j < lap_n links)%nat ->
  entry (lapQ links) i j = inject_Z (lap_entry links i j).
Proof.
  intros Hi Hj. unfold entry, lapQ. rewrite (map_nth' _ _ _ 0%nat) by (now rewrite seq_length).
  rewrite seq_nth by auto. rewrite (map_nth' _ _ _ 0%nat) by (now rewrite seq_length). now rewrite seq_nth by auto.
Qed.
Lemma entry_oob a i j : (length a <= i)%nat \/ ((forall row, In row a -> length row = length a) /\ (length a <= j)%nat) ->
  entry a i j = 0.
Proof.
  unfold entry. intros [H|[Hr H]].
  - rewrite (nth_overflow a) by auto. now destruct j.
  - destruct (nth_in_or_default i a []) as [I| ->]; [|now destruct j]. apply nth_overflow. now rewrite (Hr _ I).
Qed.

Lemma net_apply links x i : length x = lap_n links -> (i < lap_n links)%nat ->
  applyQ (lapQ links) x i == net links x i.
Proof.
  intros Hx Hi. unfold applyQ. rewrite Hx.
  transitivity (sumQ (map (fun j => sumQ (map (fun l => inject_Z (inc l i) * (inject_Z (inc l j) * nth j x 0)) links))
    (seq 0 (lap_n links)))).
  - apply sumQ_map_ext. intros j Hj. apply in_seq in Hj.
    change (nth j (nth i (lapQ links) []) 0) with (entry (lapQ links) i j). rewrite lapQ_entry by lia.
    unfold lap_entry. rewrite <- sumQ_inject, map_map.
    rewrite (sumQ_map_ext (fun l => inject_Z (inc l i) * (inject_Z (inc l j) * nth j x 0))
              (fun l => nth j x 0 * inject_Z (inc l i * inc l j))).
    + rewrite sumQ_map_mul. ring.
    + intros l _. rewrite inject_Z_mul. ring.
  - rewrite sumQ_swap. unfold net. apply sumQ_map_ext. intros [p q] Hl.
    rewrite sumQ_map_mul. rewrite (inc_sumQ links p q (fun j => nth j x 0)) by auto.
    unfold inc. cbn [fst snd]. rewrite inject_Z_sub.
    destruct (Nat.eqb_spec q i), (Nat.eqb_spec p i); subst; cbn [b2z]; ring.
Qed.

Lemma argmaxQ (x : list Q) : x <> [] -> exists v, (v < length x)%nat /\ forall i, (i < length x)%nat -> nth i x 0 <= nth v x 0.
Proof.
  induction x as [|a x IH]; [easy|]. intros _. destruct x as [|b x].
  - exists 0%nat. split; [cbn; lia|]. intros i Hi. destruct i; [apply Qle_refl|cbn in Hi; lia].
  - destruct IH as (v & Lv & Hv); [discriminate|].
    destruct (Qlt_le_dec a (nth v (b :: x) 0)) as [C|C].
    + exists (S v). split; [cbn in *; lia|]. intros [|i] Hi; [apply Qlt_le_weak, C|]. apply Hv. cbn in Hi |- *; lia.
    + exists 0%nat. split; [cbn; lia|]. intros [|i] Hi; [apply Qle_refl|].
      apply Qle_trans with (nth v (b :: x) 0); [|exact C]. apply Hv. cbn in Hi |- *; lia.
Qed.

Section Principle.
  Context (links : list (nat * nat)) (mask : list bool).
  Hypothesis Hin : forall p, In p links -> (fst p < length mask)%nat /\ (snd p < length mask)%nat.
  Hypothesis Hanch : anchored links mask.

  Lemma max_principle x M : length x = length mask -> harmonic_off links x mask ->
    (forall m, masked mask m -> nth m x 0 <= M) -> forall i, (i < length mask)%nat -> nth i x 0 <= M.
  Proof.
    intros Hx Hh Hm i Hi. destruct (argmaxQ x) as (v & Lv & Hv); [destruct x; [cbn in *; lia|discriminate]|].
    assert (nth v x 0 <= M) as HvM; [|apply Qle_trans with (nth v x 0); auto; apply Hv; lia].
    destruct (Hanch v ltac:(lia)) as (m & Mm & Rm).
    assert (forall w, reach links v w -> nth v x 0 <= M \/ ((w < length mask)%nat /\ nth w x 0 == nth v x 0)) as K.
    { intros w Hr. induction Hr as [|w w' Hr IH Hl]; [right; split; [lia|reflexivity]|].
      destruct IH as [IH|[Lw IH]]; [now left|].
      destruct (split_point mask w Lw) as [Mw|Fw]; [left; rewrite <- IH; now apply Hm|]. right.
      assert (w' < length mask)%nat as Lw' by (destruct Hl as [Hl|Hl]; apply Hin in Hl; cbn in Hl; lia).
      split; [auto|]. specialize (Hh w Fw). unfold net in Hh.
      set (term := fun l : nat * nat => (if (fst l =? w)%nat then nth w x 0 - nth (snd l) x 0 else 0) +
        (if (snd l =? w)%nat then nth w x 0 - nth (fst l) x 0 else 0)) in *.
      assert (forall l, In l links -> 0 <= (if (fst l =? w)%nat then nth w x 0 - nth (snd l) x 0 else 0) /\
        0 <= (if (snd l =? w)%nat then nth w x 0 - nth (fst l) x 0 else 0)) as Nn.
      { intros l Hl'. apply Hin in Hl' as [B1 B2].
        pose proof (Hv (fst l) ltac:(lia)). pose proof (Hv (snd l) ltac:(lia)).
        destruct (_ =? w)%nat, (snd l =? w)%nat; split; lra. }
      assert (forall l, In l links -> 0 <= term l) as Nt.
      { intros l Hl'. destruct (Nn l Hl'). unfold term. lra. }
      pose proof (sumQ_nonneg_zero term links Nt Hh) as Z0.
      destruct Hl as [Hl|Hl]; pose proof (Nn _ Hl) as [N1 N2]; pose proof (Z0 _ Hl) as Zl; unfold term in Zl;
        cbn [fst snd] in *; rewrite Nat.eqb_refl in *; lra. }
    destruct (K m Rm) as [C|[_ E]]; [auto|]. rewrite <- E. now apply Hm.
  Qed.

  Lemma net_opp x i : net links (map Qopp x) i == - net links x i.
  Proof.
    assert (forall j, nth j (map Qopp x) 0 == - nth j x 0) as E.
    { intros j. destruct (Nat.lt_ge_cases j (length x)).
      - rewrite (map_nth' _ x _ 0) by auto. reflexivity.
      - rewrite !nth_overflow by (rewrite ?map_length; auto). reflexivity. }
    unfold net. rewrite <- sumQ_map_opp. apply sumQ_map_ext. intros l _.
    destruct (_ =? i)%nat, (snd l =? i)%nat; rewrite ?E; ring.
  Qed.

  Lemma min_principle x M : length x = length mask -> harmonic_off links x mask ->
    (forall m, masked mask m -> M <= nth m x 0) -> forall i, (i < length mask)%nat -> M <= nth i x 0.
  Proof.
    intros Hx Hh Hm i Hi.
    assert (nth i (map Qopp x) 0 <= - M) as H.
    { apply max_principle; auto.
      - now rewrite map_length.
      - intros j Hj. rewrite net_opp, (Hh j Hj). reflexivity.
      - intros m Mm. rewrite (map_nth' _ x _ 0) by (rewrite Hx; now apply masked_lt). specialize (Hm m Mm). lra. }
    rewrite (map_nth' _ x _ 0) in H by lia. lra.
  Qed.

  Lemma harmonic_unique x y : length x = length mask -> length y = length mask ->
    harmonic_off links x mask -> harmonic_off links y mask ->
    (forall m, masked mask m -> nth m x 0 == nth m y 0) -> forall i, (i < length mask)%nat -> nth i x 0 == nth i y 0.
  Proof.
    intros Lx Ly Hx Hy Hm.
    assert (forall i, nth i (subQ x y) 0 == nth i x 0 - nth i y 0) as E.
    { intros j. unfold subQ. destruct (Nat.lt_ge_cases j (length x)).
      - rewrite (map_nth' _ _ _ (0, 0)) by (rewrite combine_length; lia).
        rewrite (combine_nth' _ _ _ 0 0) by lia. reflexivity.
      - rewrite !nth_overflow by (rewrite ?map_length, ?combine_length; lia). reflexivity. }
    assert (length (subQ x y) = length mask) as Ls by (unfold subQ; rewrite map_length, combine_length; lia).
    assert (harmonic_off links (subQ x y) mask) as Hs.
    { intros i Hi. specialize (Hx i Hi). specialize (Hy i Hi).
      transitivity (net links x i - net links y i); [|rewrite Hx, Hy; reflexivity].
      unfold net. rewrite <- sumQ_map_sub. apply sumQ_map_ext. intros l _.
      destruct (_ =? i)%nat, (snd l =? i)%nat; rewrite ?E; ring. }
    assert (forall m, masked mask m -> nth m (subQ x y) 0 == 0) as Hz.
    { intros m Mm. rewrite E, (Hm m Mm). ring. }
    intros i Hi.
    assert (nth i (subQ x y) 0 <= 0) as A by (apply max_principle; auto; intros; rewrite Hz by auto; apply Qle_refl).
    assert (0 <= nth i (subQ x y) 0) as B by (apply min_principle; auto; intros; rewrite Hz by auto; apply Qle_refl).
    rewrite E in A, B. lra.
  Qed.
End Principle.
