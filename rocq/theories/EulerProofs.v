(** Completeness of the listed cycles is Euler's formula: taking away one boundary
    cycle with one of its boundary links changes neither side of the equivalence. *)
From Verif Require Import Base BaseLemmas GraphModel GraphSpec EulerSpec.
From Coq Require Import List ZifyBool Lqa Permutation.
Import ListNotations.
Set Default Goal Selector "!".
Local Open Scope nat_scope.

Definition spans (links : list (nat * nat)) (cs : list (list nat)) : Prop :=
  forall f : nat -> nat -> Q, (forall c, In c cs -> (circQ f c == 0)%Q) ->
    exists phi : nat -> Q, forall a b, In (a, b) links -> (f a b == phi b - phi a)%Q.

Record inv (n : nat) (links : list (nat * nat)) (cs : list (list nat)) : Prop := {
  i_nodup : NoDup links;
  i_lt : forall a b, In (a, b) links -> a < b < n;
  i_conn : forall v, v < n -> reach links 0 v;
  i_side : forall a b, In (a, b) (flat_map sides cs) -> listed links a b;
  i_once : NoDup (flat_map sides cs);
  i_outer : forall c, In c cs -> outer cs c }.

Lemma nodup_right {A} (a b : list A) : NoDup (a ++ b) -> NoDup b.
Proof. induction a as [|x a IH]; cbn; intros H; [auto|]. apply NoDup_cons_iff in H. tauto. Qed.
Lemma nodup_left {A} (a b : list A) : NoDup (a ++ b) -> NoDup a.
Proof. intros H. apply (nodup_right b). eapply Permutation_NoDup; [apply Permutation_app_comm|exact H]. Qed.

Lemma reach_trans l u v w : reach l u v -> reach l v w -> reach l u w.
Proof. intros H K. induction K; [auto|]. eapply reach_step; eauto. Qed.
Lemma reach_sym l u v : reach l u v -> reach l v u.
Proof.
  induction 1 as [|v v' H IH E]; [constructor|]. apply reach_trans with v; [|auto].
  apply reach_step with v'; [constructor|tauto].
Qed.

(** * Connected graphs have a spanning tree *)
Section Tree.
  Variables (n : nat) (links : list (nat * nat)).
  Hypothesis Hlt : forall a b, In (a, b) links -> a < b < n.
  Hypothesis Hconn : forall v, v < n -> reach links 0 v.
  Hypothesis Hn : 0 < n.

  (** [t] is a tree on the nodes [s]. *)
  Definition tree (s : list nat) (t : list (nat * nat)) : Prop :=
    NoDup s /\ In 0 s /\ (forall v, In v s -> v < n) /\ length s = S (length t) /\ NoDup t /\ incl t links /\
    (forall a b, In (a, b) t -> In a s /\ In b s) /\ (forall v, In v s -> reach t 0 v) /\
    forall f : nat -> nat -> Q, exists phi : nat -> Q, forall a b, In (a, b) t -> (f a b == phi b - phi a)%Q.

  Lemma crossing s v : In 0 s -> reach links 0 v -> ~ In v s -> exists a b, (In (a, b) links \/ In (b, a) links) /\ In a s /\ ~ In b s.
  Proof using.
    intros H0 R. induction R as [|v v' R IH E]; intros N; [contradiction|].
    destruct (in_dec Nat.eq_dec v s) as [I|I]; [|auto]. eauto.
  Qed.

  Lemma tree_grow s t : tree s t -> length s < n -> exists s' t', tree s' t' /\ length s' = S (length s).
  Proof using Hconn Hlt Hn links n.
    intros (Nd & H0 & B & L & Nt & It & Et & Rt & P) Ls.
    assert (exists v, v < n /\ ~ In v s) as (v & Bv & Nv).
    { destruct (Forall_Exists_dec (fun v => In v s) (fun v => in_dec Nat.eq_dec v s) (seq 0 n)) as [F|E].
      - exfalso. rewrite Forall_forall in F. assert (length (seq 0 n) <= length s) as K by (apply NoDup_incl_length; [apply seq_NoDup|exact F]).
        rewrite seq_length in K. lia.
      - apply Exists_exists in E as (v & I & N). apply in_seq in I. exists v. split; [lia|auto]. }
    destruct (crossing s v H0 (Hconn v Bv) Nv) as (a & b & E & Ia & Nb).
    set (e := if a <? b then (a, b) else (b, a)).
    assert (In e links /\ (e = (a, b) \/ e = (b, a))) as [Ie Ee].
    { unfold e. destruct E as [E|E]; pose proof (Hlt _ _ E); [rewrite (proj2 (Nat.ltb_lt a b)) by lia|rewrite (proj2 (Nat.ltb_ge a b)) by lia]; auto. }
    assert (a < n /\ b < n) as [Ba Bb] by (destruct E as [E|E]; apply Hlt in E; lia).
    exists (b :: s), (e :: t). split; [|reflexivity].
    split; [now constructor|]. split; [now right|]. split; [intros u [<-|I]; auto|]. split; [cbn; lia|].
    split. { constructor; [|auto]. intros I. destruct Ee as [Ee|Ee]; rewrite Ee in I; apply Et in I; tauto. }
    split; [intros u [<-|I]; auto|]. split; [|split].
    - intros u w [I|I].
      + destruct Ee as [Ee|Ee]; rewrite Ee in I; injection I as <- <-; cbn; auto.
      + apply Et in I. cbn. tauto.
    - assert (forall u, In u s -> reach (e :: t) 0 u) as R.
      { intros u I. apply Rt in I. clear - I. induction I; [constructor|]. eapply reach_step; [eauto|]. cbn. tauto. }
      intros u [<-|I]; [|auto]. apply reach_step with a; [auto|]. cbn. destruct Ee as [->| ->]; auto.
    - intros f. destruct (P f) as (phi & Hp).
      exists (fun u => if u =? b then (phi a + alongQ f a b)%Q else phi u).
      intros u w [I|I].
      + unfold e in I. destruct (a <? b) eqn:C; injection I as <- <-.
        * rewrite Nat.eqb_refl, (proj2 (Nat.eqb_neq a b)) by lia. unfold alongQ. rewrite C. ring.
        * assert (a <> b) by congruence. rewrite Nat.eqb_refl, (proj2 (Nat.eqb_neq a b)) by auto. unfold alongQ. rewrite C. ring.
      + destruct (Et _ _ I) as [Iu Iw]. rewrite (proj2 (Nat.eqb_neq u b)), (proj2 (Nat.eqb_neq w b)) by congruence. auto.
  Qed.

  Lemma tree_exists : exists s t, tree s t /\ length s = n.
  Proof using Hlt Hconn Hn.
    assert (forall k, k < n -> exists s t, tree s t /\ length s = S k) as K.
    { induction k as [|k IH]; intros Bk.
      - exists [0], []. split; [|reflexivity].
        split; [constructor; [intros []|constructor]|]. split; [now left|]. split; [intros v [<-|[]]; auto|]. split; [reflexivity|].
        split; [constructor|]. split; [intros x []|]. split; [intros a b []|]. split; [intros v [<-|[]]; apply reach_refl|].
        intros f. exists (fun _ => 0%Q). intros a b [].
      - destruct IH as (s & t & T & L); [lia|]. destruct (tree_grow s t T) as (s' & t' & T' & L'); [lia|]. exists s', t'. split; [auto|lia]. }
    destruct (K (n - 1)) as (s & t & T & L); [lia|]. exists s, t. split; [auto|lia].
  Qed.
End Tree.

(** Without cycles: completeness says that the graph is a tree. *)
Lemma spans_tree n links : inv n links [] -> 0 < n -> (spans links [] <-> S (length links) = n).
Proof.
  intros [Nd Hlt Hc _ _ _] Hn. destruct (tree_exists n links Hlt Hc Hn) as (s & t & (Ns & H0 & B & L & Nt & It & Et & Rt & P) & Ls).
  split.
  - intros Sp. assert (incl links t) as I.
    { intros [a b] I. destruct (in_dec (fun p q : nat * nat => ltac:(repeat decide equality)) (a, b) t) as [|N]; [auto|exfalso].
      destruct (Sp (fun u v => if (u =? a) && (v =? b) then 1%Q else 0%Q)) as (phi & K); [intros c []|].
      assert (forall v, reach t 0 v -> (phi v == phi 0%nat)%Q) as R.
      { intros v Rv. induction Rv as [|v v' Rv IH E]; [reflexivity|].
        assert (forall u w, In (u, w) t -> (phi w == phi u)%Q) as R1.
        { intros u w Iu. specialize (K u w (It _ Iu)). destruct ((u =? a) && (w =? b)) eqn:C; [|lra].
          assert (u = a) as -> by lia. assert (w = b) as -> by lia. contradiction. }
        destruct E as [E|E]; apply R1 in E; lra. }
      pose proof (Hlt _ _ I) as Bb. specialize (K a b I). rewrite !Nat.eqb_refl in K. cbn in K.
      assert (forall v, v < n -> In v s) as All.
      { intros v Bv. apply (NoDup_length_incl (l := s) (l' := seq 0 n)); auto; [rewrite seq_length; lia|intros u Iu; apply in_seq; specialize (B u Iu); lia|apply in_seq; lia]. }
      rewrite (R a), (R b) in K by (apply Rt, All; lia). lra. }
    pose proof (NoDup_incl_length Nd I). pose proof (NoDup_incl_length Nt It). lia.
  - intros E f _. destruct (P f) as (phi & K). exists phi. intros a b I. apply K.
    apply (NoDup_length_incl (l := t) (l' := links)); auto. lia.
Qed.

(** * Taking away a boundary cycle *)

(** The sides of a cycle follow one another round. *)
Lemma sides_nth c k : k < length c -> nth k (sides c) (0, 0) = (nth k c 0, nth (S k mod length c) c 0).
Proof.
  destruct c as [|a t]; [cbn; lia|]. intros B. unfold sides. rewrite combine_nth by (cbn; rewrite app_length; cbn; lia). f_equal.
  cbn [length] in *. destruct (Nat.eq_dec k (length t)) as [->|N].
  - rewrite Nat.mod_same by lia. rewrite app_nth2, Nat.sub_diag by lia. reflexivity.
  - rewrite Nat.mod_small by lia. rewrite app_nth1 by lia. reflexivity.
Qed.
Lemma sides_length c : length (sides c) = length c.
Proof. destruct c as [|a t]; [reflexivity|]. unfold sides. rewrite combine_length, app_length. cbn [length]. lia. Qed.

Lemma potential_round (phi : nat -> Q) c : (sumQ (map (fun s => phi (snd s) - phi (fst s)) (sides c)) == 0)%Q.
Proof.
  destruct c as [|a t]; [reflexivity|]. unfold sides.
  assert (forall u t, sumQ (map (fun s => phi (snd s) - phi (fst s)) (combine (u :: t) (t ++ [a]))) == phi a - phi u)%Q as K; [|rewrite K; ring].
  clear t. intros u t. revert u. induction t as [|v t IH]; intros u; [cbn; ring|].
  change (combine (u :: v :: t) ((v :: t) ++ [a])) with ((u, v) :: combine (v :: t) (t ++ [a])).
  cbn [map sumQ fold_right fst snd]. fold (sumQ (map (fun s => phi (snd s) - phi (fst s))%Q (combine (v :: t) (t ++ [a])))). rewrite IH. ring.
Qed.

(** All the way round without one side. *)
Lemma round_rest (r : nat -> nat -> Prop) c k : k < length c -> (forall u, r u u) -> (forall u v w, r u v -> r v w -> r u w) ->
  (forall j, j < length c -> j <> k -> r (nth j c 0) (nth (S j mod length c) c 0)) ->
  r (nth (S k mod length c) c 0) (nth k c 0).
Proof.
  intros B R0 R1 H.
  assert (forall j, j < length c -> r (nth (S k mod length c) c 0) (nth ((S k + j) mod length c) c 0)) as K.
  { induction j as [|j IH]; intros Bj; [rewrite Nat.add_0_r; apply R0|].
    apply R1 with (nth ((S k + j) mod length c) c 0); [apply IH; lia|].
    replace (nth ((S k + S j) mod length c) c 0) with (nth (S ((S k + j) mod length c) mod length c) c 0).
    - apply H; [apply Nat.mod_upper_bound; lia|]. intros E.
      assert ((S k + j) mod length c = k) as E' by exact E.
      destruct (Nat.lt_ge_cases (S k + j) (length c)) as [C|C].
      + rewrite Nat.mod_small in E' by auto. lia.
      + assert (S k + j = (S k + j - length c) + 1 * length c) as E2 by lia. rewrite E2, Nat.mod_add, Nat.mod_small in E' by lia. lia.
    - f_equal. rewrite <- (Nat.add_1_r ((S k + j) mod length c)), Nat.add_mod_idemp_l by lia. f_equal. lia. }
  specialize (K (length c - 1)). replace ((S k + (length c - 1)) mod length c) with k in K; [apply K; lia|].
  replace (S k + (length c - 1)) with (k + 1 * length c) by lia. rewrite Nat.mod_add, Nat.mod_small by lia. reflexivity.
Qed.

Lemma alongQ_swap (f : nat -> nat -> Q) a b : a <> b -> (alongQ f b a == - alongQ f a b)%Q.
Proof. intros N. unfold alongQ. destruct (a <? b) eqn:C, (b <? a) eqn:C'; try lia; ring. Qed.

Lemma outer_base cs c : outer cs c -> exists c' a b, In c' cs /\ In (a, b) (sides c') /\ ~ In (b, a) (flat_map sides cs).
Proof. induction 1; eauto 8. Qed.

Lemma in_sides cs c s : In c cs -> In s (sides c) -> In s (flat_map sides cs).
Proof. intros I J. apply in_flat_map. eauto. Qed.

Section Peel.
  Variables (n : nat) (links : list (nat * nat)) (c1 c2 : list (list nat)) (c : list nat) (a b : nat) (l1 l2 : list (nat * nat)) (e : nat * nat).
  Hypothesis Hi : inv n links (c1 ++ c :: c2).
  Hypothesis Hs : In (a, b) (sides c).
  Hypothesis Hb : ~ In (b, a) (flat_map sides (c1 ++ c :: c2)).
  Hypothesis He : e = (a, b) \/ e = (b, a).
  Hypothesis Hl : links = l1 ++ e :: l2.

  Let cs' := c1 ++ c2.
  Let links' := l1 ++ l2.

  Lemma p_links x : In x links <-> x = e \/ In x links'.
  Proof using He Hl a b e l1 l2 links links'. unfold links'. rewrite Hl, !in_app_iff. cbn. intuition. Qed.
  Lemma p_notin : ~ In e links'.
  Proof using Hl Hi. destruct Hi as [Nd _ _ _ _ _]. rewrite Hl in Nd. now apply NoDup_remove_2 in Nd. Qed.
  Lemma p_perm : Permutation (flat_map sides (c1 ++ c :: c2)) (sides c ++ flat_map sides cs').
  Proof using.
    unfold cs'. rewrite !flat_map_app. cbn [flat_map].
    rewrite Permutation_app_comm, <- app_assoc. apply Permutation_app_head, Permutation_app_comm.
  Qed.
  Lemma p_nodup : NoDup (sides c ++ flat_map sides cs').
  Proof using Hi. eapply Permutation_NoDup; [apply p_perm|apply (i_once _ _ _ Hi)]. Qed.
  Lemma p_apart x : In x (sides c) -> ~ In x (flat_map sides cs').
  Proof using Hi.
    pose proof p_nodup as N. intros I J. apply in_split in I as (u & v & E). rewrite E, <- app_assoc in N.
    apply NoDup_remove_2 in N. apply N. rewrite !in_app_iff. auto.
  Qed.
  Lemma p_side x : In x (flat_map sides (c1 ++ c :: c2)) <-> In x (sides c) \/ In x (flat_map sides cs').
  Proof using. rewrite <- in_app_iff. split; apply Permutation_in; [|apply Permutation_sym]; apply p_perm. Qed.
  Lemma p_neq : a <> b.
  Proof using Hb He Hi Hs a b c c1 c2 cs' e links n. intros ->. destruct (i_side _ _ _ Hi b b) as [I|I]; [apply p_side; auto| |]; apply (i_lt _ _ _ Hi) in I; lia. Qed.

  (** A listed side other than (a, b) is a link that stays. *)
  Lemma p_kept u v : In (u, v) (flat_map sides (c1 ++ c :: c2)) -> (u, v) <> (a, b) -> listed links' u v.
  Proof using Hi Hs Hb He Hl.
    intros I N. pose proof (i_side _ _ _ Hi u v I) as [J|J]; apply p_links in J as [J|J]; try (now left); try (now right).
    - destruct He as [E|E]; rewrite E in J; [congruence|]. injection J as -> ->. contradiction.
    - destruct He as [E|E]; rewrite E in J; injection J as -> ->; [contradiction|congruence].
  Qed.

  Lemma p_position : exists k, k < length c /\ nth k c 0 = a /\ nth (S k mod length c) c 0 = b /\
    forall j, j < length c -> j <> k -> nth j (sides c) (0, 0) <> (a, b).
  Proof using Hi Hs.
    destruct (In_nth _ _ (0, 0) Hs) as (k & Bk & E). pose proof Bk as Bk'. rewrite sides_length in Bk'. exists k. split; [auto|].
    pose proof E as E'. rewrite sides_nth in E' by auto. injection E' as E1 E2. split; [auto|]. split; [auto|]. intros j Bj Nj Ej.
    apply Nj. pose proof p_nodup as N. apply nodup_left in N. rewrite (NoDup_nth _ (0, 0)) in N. apply N; auto; [now rewrite sides_length|]. congruence.
  Qed.

  Lemma p_reach u v : reach links u v <-> reach links' u v.
  Proof using Hi Hs Hb He Hl.
    split; induction 1 as [|v v' R IH E]; try constructor.
    - assert (reach links' b a) as K.
      { destruct p_position as (k & Bk & Ea & Eb & Nk). rewrite <- Ea, <- Eb. apply (round_rest (reach links')); auto.
        - constructor.
        - intros x y z. apply reach_trans.
        - intros j Bj Nj. eapply reach_step; [constructor|]. specialize (Nk j Bj Nj). rewrite sides_nth in Nk by auto.
          apply p_kept; [|auto]. apply p_side. left. rewrite <- sides_nth by auto. apply nth_In. now rewrite sides_length. }
      assert (forall x y, In (x, y) links -> reach links' x y /\ reach links' y x) as K'.
      { intros x y I. apply p_links in I as [I|I].
        - assert (reach links' a b) by now apply reach_sym. destruct He as [Ee|Ee]; rewrite Ee in I; injection I as -> ->; auto.
        - split; (eapply reach_step; [apply reach_refl|auto]). }
      apply reach_trans with v; [auto|]. destruct E as [E|E]; apply K' in E; tauto.
    - eapply reach_step; [exact IH|]. rewrite !p_links. tauto.
  Qed.

  Lemma p_inv : inv n links' cs'.
  Proof using Hi Hs Hb He Hl.
    split.
    - destruct Hi as [Nd _ _ _ _ _]. rewrite Hl in Nd. now apply NoDup_remove_1 in Nd.
    - intros x y I. apply (i_lt _ _ _ Hi). apply p_links. auto.
    - intros v B. apply p_reach, (i_conn _ _ _ Hi), B.
    - intros x y I. apply p_kept; [apply p_side; auto|]. intros E. rewrite E in I. now apply p_apart in I.
    - pose proof p_nodup as N. apply nodup_right in N. exact N.
    - intros d Id. assert (In d (c1 ++ c :: c2)) as Id' by (unfold cs' in Id; rewrite in_app_iff in *; cbn; tauto).
      pose proof (i_outer _ _ _ Hi d Id') as O. clear Id'. revert Id.
      induction O as [d u v I J N|d d' u v I J J' O IH]; intros Id.
      + apply outer_side with u v; auto. intros K. apply N. apply p_side. auto.
      + assert (In d' (c1 ++ c :: c2)) as I' by (clear - O; now destruct O).
        rewrite in_app_iff in I'. cbn [In] in I'. destruct (or_comm (In d' c1) (c = d' \/ In d' c2)) as [W _]. 
        destruct (in_dec (list_eq_dec Nat.eq_dec) d' cs') as [Id'|Nd'].
        * apply outer_step with d' u v; auto.
        * assert (c = d') as <- by (unfold cs' in Nd'; rewrite in_app_iff in Nd'; tauto).
          apply outer_side with u v; auto. now apply p_apart.
  Qed.

  (** Sum round [c] of a field that comes from a potential on the links that stay. *)
  Lemma p_circ f (phi : nat -> Q) : (forall x y, In (x, y) links' -> f x y == phi y - phi x)%Q ->
    (circQ f c == alongQ f a b - (phi b - phi a))%Q.
  Proof using Hi Hs Hb He Hl.
    intros P. unfold circQ. pose proof (potential_round phi c) as Z.
    destruct (in_split _ _ Hs) as (u & v & E). 
    assert (forall x y, In (x, y) u \/ In (x, y) v -> alongQ f x y == phi y - phi x)%Q as K.
    { intros x y I. assert (In (x, y) (sides c)) as I' by (rewrite E, in_app_iff; cbn; tauto).
      assert ((x, y) <> (a, b)) as N.
      { intros N. rewrite N in I. pose proof p_nodup as Nd. apply nodup_left in Nd. rewrite E in Nd. apply NoDup_remove_2 in Nd.
        apply Nd. rewrite in_app_iff. auto. }
      destruct (p_kept x y) as [J|J]; [apply p_side; auto|auto| |]; pose proof (i_lt _ _ _ p_inv _ _ J) as B; unfold alongQ.
      - rewrite (proj2 (Nat.ltb_lt x y)) by lia. auto.
      - rewrite (proj2 (Nat.ltb_ge x y)) by lia. rewrite (P _ _ J). ring. }
    rewrite E in Z |- *. rewrite map_app, sumQ_app in Z |- *. cbn [map] in Z |- *. cbn [sumQ fold_right fst snd] in Z |- *.
    fold (sumQ (map (fun s => phi (snd s) - phi (fst s)) v)%Q) in Z. fold (sumQ (map (fun s => alongQ f (fst s) (snd s)) v)).
    rewrite (sumQ_map_ext _ (fun s => phi (snd s) - phi (fst s))%Q u) by (intros [x y] I; apply K; auto).
    rewrite (sumQ_map_ext _ (fun s => phi (snd s) - phi (fst s))%Q v) by (intros [x y] I; apply K; auto). lra.
  Qed.

  Lemma p_spans : spans links (c1 ++ c :: c2) <-> spans links' cs'.
  Proof using Hi Hs Hb He Hl.
    pose proof p_neq as Nab. split; intros H f Hf.
    - (* extend the field over the removed link *)
      set (w := (circQ (fun x y => if (x =? fst e) && (y =? snd e) then 0 else f x y) c)%Q).
      set (g := fun x y => if (x =? fst e) && (y =? snd e) then (if a <? b then - w else w)%Q else f x y).
      assert (In e links) as Ie by (apply p_links; auto).
      assert (fst e < snd e) as Be by (destruct e; apply (i_lt _ _ _ Hi) in Ie; cbn; lia).
      assert (forall x y, (x, y) <> (a, b) -> (x, y) <> (b, a) -> alongQ g x y = alongQ f x y) as G.
      { intros x y N N'. unfold alongQ, g. destruct He as [Ee|Ee]; rewrite Ee; cbn [fst snd].
        - destruct (x <? y); [destruct ((x =? a) && (y =? b)) eqn:C; auto; exfalso; apply N; f_equal; lia|].
          destruct ((y =? a) && (x =? b)) eqn:C; auto; exfalso; apply N'; f_equal; lia.
        - destruct (x <? y); [destruct ((x =? b) && (y =? a)) eqn:C; auto; exfalso; apply N'; f_equal; lia|].
          destruct ((y =? b) && (x =? a)) eqn:C; auto; exfalso; apply N; f_equal; lia. }
      destruct (H g) as (phi & P).
      + intros d Id. apply in_app_iff in Id. cbn [In] in Id.
        assert (d = c \/ In d cs') as [->|Id'] by (unfold cs'; rewrite in_app_iff; intuition).
        * unfold circQ. destruct (in_split _ _ Hs) as (u & v & E). pose proof p_nodup as Nd. apply nodup_left in Nd. rewrite E in Nd. apply NoDup_remove_2 in Nd.
          set (h := fun x y => if (x =? fst e) && (y =? snd e) then 0%Q else f x y) in w.
          assert (forall s, In s u \/ In s v -> alongQ g (fst s) (snd s) = alongQ h (fst s) (snd s)) as K.
          { intros [x y] I. cbn [fst snd]. assert ((x, y) <> (a, b)) as N1 by (intros N; rewrite N in I; apply Nd; rewrite in_app_iff; auto).
            assert ((x, y) <> (b, a)) as N2.
            { intros N. apply Hb. rewrite <- N. apply p_side. left. rewrite E, in_app_iff. cbn. tauto. }
            rewrite (G _ _ N1 N2). unfold alongQ, h. destruct He as [Ee|Ee]; rewrite Ee; cbn [fst snd].
            - destruct (x <? y); [destruct ((x =? a) && (y =? b)) eqn:C; auto; exfalso; apply N1; f_equal; lia|].
              destruct ((y =? a) && (x =? b)) eqn:C; auto; exfalso; apply N2; f_equal; lia.
            - destruct (x <? y); [destruct ((x =? b) && (y =? a)) eqn:C; auto; exfalso; apply N2; f_equal; lia|].
              destruct ((y =? b) && (x =? a)) eqn:C; auto; exfalso; apply N1; f_equal; lia. }
          assert (alongQ g a b == - w)%Q as Ga.
          { unfold alongQ, g. destruct (a <? b) eqn:C.
            - assert (e = (a, b)) as -> by (destruct He as [Ee|Ee]; rewrite Ee in Be |- *; cbn in Be; [auto|lia]). cbn. rewrite !Nat.eqb_refl. cbn. ring.
            - assert (e = (b, a)) as -> by (destruct He as [Ee|Ee]; rewrite Ee in Be |- *; cbn in Be; [lia|auto]). cbn. rewrite !Nat.eqb_refl. cbn. ring. }
          assert (alongQ h a b == 0)%Q as Ha.
          { unfold alongQ, h. destruct (a <? b) eqn:C.
            - assert (e = (a, b)) as -> by (destruct He as [Ee|Ee]; rewrite Ee in Be |- *; cbn in Be; [auto|lia]). cbn. rewrite !Nat.eqb_refl. cbn. ring.
            - assert (e = (b, a)) as -> by (destruct He as [Ee|Ee]; rewrite Ee in Be |- *; cbn in Be; [lia|auto]). cbn. rewrite !Nat.eqb_refl. cbn. ring. }
          assert (w == sumQ (map (fun s => alongQ h (fst s) (snd s)) u) + sumQ (map (fun s => alongQ h (fst s) (snd s)) v))%Q as Ew.
          { unfold w, circQ. rewrite E, map_app, sumQ_app. cbn [map sumQ fold_right fst snd].
            fold (sumQ (map (fun s => alongQ h (fst s) (snd s)) v)). rewrite Ha. ring. }
          rewrite E, map_app, sumQ_app. cbn [map sumQ fold_right fst snd]. fold (sumQ (map (fun s => alongQ g (fst s) (snd s)) v)).
          rewrite (sumQ_map_ext _ (fun s => alongQ h (fst s) (snd s)) u) by (intros s I; rewrite K by auto; reflexivity).
          rewrite (sumQ_map_ext _ (fun s => alongQ h (fst s) (snd s)) v) by (intros s I; rewrite K by auto; reflexivity).
          rewrite Ga. lra.
        * rewrite <- (Hf d Id'). unfold circQ. apply sumQ_map_ext. intros [x y] I. cbn [fst snd].
          assert (In (x, y) (flat_map sides cs')) as I' by (eapply in_sides; eauto). rewrite G; [reflexivity| |].
          -- intros N. rewrite N in I'. now apply p_apart in I'.
          -- intros N. rewrite N in I'. apply Hb. apply p_side. auto.
      + exists phi. intros x y I. rewrite <- (P x y) by (apply p_links; auto). unfold g.
        destruct ((x =? fst e) && (y =? snd e)) eqn:C; [|reflexivity]. exfalso. apply p_notin. replace e with (x, y); [auto|].
        destruct e as [e1 e2]. cbn in C. f_equal; lia.
    - destruct (H f) as (phi & P).
      + intros d Id. apply Hf. unfold cs' in Id. rewrite in_app_iff in *. cbn. tauto.
      + exists phi. intros x y I. apply p_links in I as [I|I]; [|auto].
        pose proof (p_circ f phi P) as C. rewrite Hf in C by (rewrite in_app_iff; cbn; auto).
        assert (alongQ f a b == phi b - phi a)%Q as A by lra.
        assert (In e links) as Ie by (apply p_links; auto). rewrite <- I in Ie. apply (i_lt _ _ _ Hi) in Ie.
        unfold alongQ in A. destruct He as [Ee|Ee]; rewrite Ee in I; injection I as -> ->.
        * rewrite (proj2 (Nat.ltb_lt a b)) in A by lia. auto.
        * rewrite (proj2 (Nat.ltb_ge a b)) in A by lia. lra.
  Qed.
End Peel.

Lemma spans_euler n cs : 0 < n -> forall links, inv n links cs -> (spans links cs <-> n + length cs = length links + 1).
Proof.
  intros Hn. remember (length cs) as m eqn:Em. revert cs Em. induction m as [|m IH]; intros cs Em links Hi.
  - destruct cs; [|discriminate]. rewrite (spans_tree n links Hi Hn). lia.
  - destruct cs as [|c0 cs0] eqn:Ec; [discriminate|]. rewrite <- Ec in *.
    destruct (outer_base cs c0) as (c & a & b & Ic & Is & Nb); [apply (i_outer _ _ _ Hi); rewrite Ec; now left|].
    apply in_split in Ic as (c1 & c2 & E). rewrite E in *.
    assert (In (a, b) (flat_map sides (c1 ++ c :: c2))) as I by (eapply in_sides; [|exact Is]; rewrite in_app_iff; cbn; auto).
    assert (exists e, In e links /\ (e = (a, b) \/ e = (b, a))) as (e & Ie & Ee).
    { destruct (i_side _ _ _ Hi a b I); eauto. }
    apply in_split in Ie as (l1 & l2 & El).
    rewrite (p_spans n links c1 c2 c a b l1 l2 e Hi Is Nb Ee El).
    rewrite (IH (c1 ++ c2)).
    + rewrite El, !app_length. cbn [length]. rewrite app_length in Em. cbn [length] in Em. lia.
    + rewrite app_length in *. cbn [length] in Em. lia.
    + exact (p_inv n links c1 c2 c a b l1 l2 e Hi Is Nb Ee El).
Qed.
