(** Lemmas about [Base]. *)
From Verif Require Import Base.
From Coq Require Import ZifyBool Setoid.
Set Default Goal Selector "!".

(** * upd *)
Section Upd.
Context {A : Type}.
Implicit Types (l : list A) (x d : A).

Lemma upd_length l i x : length (upd l i x) = length l.
Proof. revert i; induction l as [|h t IH]; intros [|i]; cbn; auto. Qed.

Lemma nth_upd_eq l i x d : i < length l -> nth i (upd l i x) d = x.
Proof.
  revert i; induction l as [|h t IH]; intros [|i] Hi; cbn in *; try lia; auto.
  apply IH; lia.
Qed.

Lemma nth_upd_neq l i j x d : i <> j -> nth j (upd l i x) d = nth j l d.
Proof.
  revert i j; induction l as [|h t IH]; intros [|i] [|j] Hij; cbn in *; try lia; auto.
Qed.

Lemma nth_upd l i j x d :
  nth j (upd l i x) d = if (i =? j) && (i <? length l) then x else nth j l d.
Proof.
  destruct (Nat.eqb_spec i j) as [->|Hij]; cbn [andb].
  - destruct (Nat.ltb_spec j (length l)) as [H|H].
    + now apply nth_upd_eq.
    + rewrite !nth_overflow; auto; rewrite ?upd_length; lia.
  - now apply nth_upd_neq.
Qed.

Lemma upd_app_l l1 l2 i x : i < length l1 -> upd (l1 ++ l2) i x = upd l1 i x ++ l2.
Proof.
  revert i; induction l1 as [|h t IH]; intros [|i] Hi; cbn in *; try lia; auto.
  rewrite IH; auto; lia.
Qed.

Lemma upd_app_r l1 l2 i x : length l1 <= i ->
  upd (l1 ++ l2) i x = l1 ++ upd l2 (i - length l1) x.
Proof.
  revert i; induction l1 as [|h t IH]; intros i Hi; cbn in *.
  - now rewrite Nat.sub_0_r.
  - destruct i as [|i]; [lia|]. cbn. rewrite IH; auto; lia.
Qed.

Lemma upd_oob l i x : length l <= i -> upd l i x = l.
Proof.
  revert i; induction l as [|h t IH]; intros [|i] Hi; cbn in *; try lia; auto.
  rewrite IH; auto; lia.
Qed.

Lemma upd_upd_comm l i j x y : i <> j -> upd (upd l i x) j y = upd (upd l j y) i x.
Proof.
  revert i j; induction l as [|h t IH]; intros [|i] [|j] Hij; cbn in *; try lia; auto.
  f_equal; apply IH; lia.
Qed.

Lemma nth_ext_len l l' d : length l = length l' ->
  (forall i, i < length l -> nth i l d = nth i l' d) -> l = l'.
Proof. intros HL H; apply (nth_ext l l' d d HL H). Qed.

Lemma In_nth_iff l x d : In x l <-> exists i, i < length l /\ nth i l d = x.
Proof.
  split; [apply In_nth|]. intros (i & Hi & <-). now apply nth_In.
Qed.
End Upd.

(** * Sums over Z *)
Lemma sumZ_app l1 l2 : sumZ (l1 ++ l2) = (sumZ l1 + sumZ l2)%Z.
Proof. induction l1; cbn [sumZ fold_right app] in *; unfold sumZ in *; cbn; lia. Qed.

Lemma sumZ_cons a l : sumZ (a :: l) = (a + sumZ l)%Z.
Proof. reflexivity. Qed.

Lemma sumZ_map_add {A} (f g : A -> Z) l :
  sumZ (map (fun x => f x + g x)%Z l) = (sumZ (map f l) + sumZ (map g l))%Z.
Proof. induction l as [|a l IH]; [reflexivity|]. cbn [map]; rewrite !sumZ_cons, IH; lia. Qed.

Lemma sumZ_map_opp {A} (f : A -> Z) l :
  sumZ (map (fun x => - f x)%Z l) = (- sumZ (map f l))%Z.
Proof. induction l as [|a l IH]; [reflexivity|]. cbn [map]; rewrite !sumZ_cons, IH; lia. Qed.

Lemma sumZ_map_mul {A} (c : Z) (f : A -> Z) l :
  sumZ (map (fun x => c * f x)%Z l) = (c * sumZ (map f l))%Z.
Proof. induction l as [|a l IH]; [cbn; lia|]. cbn [map]; rewrite !sumZ_cons, IH; lia. Qed.

Lemma sumZ_map_zero {A} (f : A -> Z) l :
  (forall x, In x l -> f x = 0%Z) -> sumZ (map f l) = 0%Z.
Proof.
  induction l as [|a l IH]; intros H; [reflexivity|]. cbn [map]; rewrite sumZ_cons, IH.
  - rewrite H; [reflexivity|now left].
  - intros; apply H; now right.
Qed.

Lemma sumZ_map_ext {A} (f g : A -> Z) l :
  (forall x, In x l -> f x = g x) -> sumZ (map f l) = sumZ (map g l).
Proof. intros H; f_equal; now apply map_ext_in. Qed.

Lemma sumZ_map_le {A} (f g : A -> Z) l :
  (forall x, In x l -> (f x <= g x)%Z) -> (sumZ (map f l) <= sumZ (map g l))%Z.
Proof.
  induction l as [|a l IH]; intros H; [cbn; lia|]. cbn [map]; rewrite !sumZ_cons.
  specialize (IH (fun x Hx => H x (or_intror Hx))). specialize (H a (or_introl eq_refl)). lia.
Qed.

Lemma sumZ_perm l l' : Permutation l l' -> sumZ l = sumZ l'.
Proof. induction 1; cbn; unfold sumZ in *; cbn; lia. Qed.

Lemma sumZ_swap {A B} (f : A -> B -> Z) la lb :
  sumZ (map (fun a => sumZ (map (f a) lb)) la) =
  sumZ (map (fun b => sumZ (map (fun a => f a b) la)) lb).
Proof.
  induction la as [|a la IH].
  - cbn. symmetry. apply sumZ_map_zero. reflexivity.
  - cbn [map]. rewrite sumZ_cons, IH, <- sumZ_map_add. apply sumZ_map_ext; intros; now rewrite sumZ_cons.
Qed.

Lemma sumZ_flat_map {A} (f : A -> list Z) l :
  sumZ (flat_map f l) = sumZ (map (fun x => sumZ (f x)) l).
Proof. induction l; cbn; auto. rewrite sumZ_app; unfold sumZ in *; cbn; lia. Qed.

(** * Sums over Q *)
Local Open Scope Q_scope.
Lemma sumQ_nil : sumQ [] = 0.
Proof. reflexivity. Qed.
Lemma sumQ_cons a l : sumQ (a :: l) = a + sumQ l.
Proof. reflexivity. Qed.

Lemma sumQ_app l1 l2 : sumQ (l1 ++ l2) == sumQ l1 + sumQ l2.
Proof.
  induction l1 as [|a l IH]; [cbn [map app]; rewrite ?sumQ_nil; ring|]. cbn [app]. rewrite !sumQ_cons, IH. ring.
Qed.

Lemma sumQ_map_ext {A} (f g : A -> Q) l :
  (forall x, In x l -> f x == g x) -> sumQ (map f l) == sumQ (map g l).
Proof.
  induction l as [|a l IH]; intros H; [reflexivity|]. cbn [map]; rewrite !sumQ_cons, IH.
  - rewrite H; [reflexivity|now left].
  - intros; apply H; now right.
Qed.

Lemma sumQ_map_add {A} (f g : A -> Q) l :
  sumQ (map (fun x => f x + g x) l) == sumQ (map f l) + sumQ (map g l).
Proof. induction l as [|a l IH]; [cbn [map app]; rewrite ?sumQ_nil; ring|]. cbn [map]; rewrite !sumQ_cons, IH; ring. Qed.

Lemma sumQ_map_sub {A} (f g : A -> Q) l :
  sumQ (map (fun x => f x - g x) l) == sumQ (map f l) - sumQ (map g l).
Proof. induction l as [|a l IH]; [cbn [map app]; rewrite ?sumQ_nil; ring|]. cbn [map]; rewrite !sumQ_cons, IH; ring. Qed.

Lemma sumQ_map_opp {A} (f : A -> Q) l :
  sumQ (map (fun x => - f x) l) == - sumQ (map f l).
Proof. induction l as [|a l IH]; [cbn [map app]; rewrite ?sumQ_nil; ring|]. cbn [map]; rewrite !sumQ_cons, IH; ring. Qed.

Lemma sumQ_map_mul {A} (c : Q) (f : A -> Q) l :
  sumQ (map (fun x => c * f x) l) == c * sumQ (map f l).
Proof. induction l as [|a l IH]; [cbn [map app]; rewrite ?sumQ_nil; ring|]. cbn [map]; rewrite !sumQ_cons, IH; ring. Qed.

Lemma sumQ_map_zero {A} (f : A -> Q) l :
  (forall x, In x l -> f x == 0) -> sumQ (map f l) == 0.
Proof.
  induction l as [|a l IH]; intros H; [reflexivity|]. cbn [map]; rewrite sumQ_cons, IH.
  - rewrite H; [ring|now left].
  - intros; apply H; now right.
Qed.

Lemma sumQ_map_nonneg {A} (f : A -> Q) l :
  (forall x, In x l -> 0 <= f x) -> 0 <= sumQ (map f l).
Proof.
  induction l as [|a l IH]; intros H; [cbn [map app]; rewrite ?sumQ_nil; lra|]. cbn [map]; rewrite sumQ_cons.
  pose proof (IH (fun x Hx => H x (or_intror Hx))).
  pose proof (H a (or_introl eq_refl)). lra.
Qed.

Lemma sumQ_map_le {A} (f g : A -> Q) l :
  (forall x, In x l -> f x <= g x) -> sumQ (map f l) <= sumQ (map g l).
Proof.
  induction l as [|a l IH]; intros H; [cbn [map app]; rewrite ?sumQ_nil; lra|]. cbn [map]; rewrite !sumQ_cons.
  pose proof (IH (fun x Hx => H x (or_intror Hx))).
  pose proof (H a (or_introl eq_refl)). lra.
Qed.

Lemma sumQ_nonneg_zero {A} (f : A -> Q) l :
  (forall x, In x l -> 0 <= f x) -> sumQ (map f l) == 0 ->
  forall x, In x l -> f x == 0.
Proof.
  induction l as [|a l IH]; intros H H0 x Hx; [destruct Hx|].
  cbn [map] in H0; rewrite sumQ_cons in H0.
  pose proof (sumQ_map_nonneg f l (fun y Hy => H y (or_intror Hy))) as Hn.
  pose proof (H a (or_introl eq_refl)) as Ha.
  destruct Hx as [<-|Hx]; [lra|]. apply IH; auto.
  - intros; apply H; now right.
  - lra.
Qed.

Lemma sumQ_swap {A B} (f : A -> B -> Q) la lb :
  sumQ (map (fun a => sumQ (map (f a) lb)) la) ==
  sumQ (map (fun b => sumQ (map (fun a => f a b) la)) lb).
Proof.
  induction la as [|a la IH].
  - cbn. symmetry. apply sumQ_map_zero. reflexivity.
  - cbn [map]. rewrite sumQ_cons, IH, <- sumQ_map_add. apply sumQ_map_ext; intros; now rewrite sumQ_cons.
Qed.

Lemma sumQ_perm l l' : Permutation l l' -> sumQ l == sumQ l'.
Proof.
  induction 1 as [|x l l' _ IH|x y l|l l' l'' _ IH1 _ IH2]; try rewrite !sumQ_cons.
  - reflexivity.
  - now rewrite IH.
  - ring.
  - now rewrite IH1.
Qed.

Lemma sumQ_inject (l : list Z) : sumQ (map inject_Z l) == inject_Z (sumZ l).
Proof.
  induction l as [|a l IH]; [reflexivity|].
  cbn [map]; rewrite sumQ_cons, IH, sumZ_cons, inject_Z_plus. reflexivity.
Qed.

(** * Rounding *)
Lemma Qfloor_bounds x : inject_Z (Qfloor x) <= x /\ x < inject_Z (Qfloor x) + 1.
Proof.
  split; [apply Qfloor_le|]. pose proof (Qlt_floor x) as H.
  rewrite inject_Z_plus in H. exact H.
Qed.

Lemma inject_Z_lt_iff a b : inject_Z a < inject_Z b <-> (a < b)%Z.
Proof. rewrite Zlt_Qlt; tauto. Qed.

Lemma inject_Z_le_iff a b : inject_Z a <= inject_Z b <-> (a <= b)%Z.
Proof. rewrite Zle_Qle; tauto. Qed.

Lemma inject_Z_eq_iff a b : inject_Z a == inject_Z b <-> a = b.
Proof. apply inject_Z_injective. Qed.

Lemma inject_Z_sub a b : inject_Z (a - b) == inject_Z a - inject_Z b.
Proof. unfold Z.sub. rewrite inject_Z_plus, inject_Z_opp. reflexivity. Qed.

Lemma inject_Z_add a b : inject_Z (a + b) == inject_Z a + inject_Z b.
Proof. rewrite inject_Z_plus. reflexivity. Qed.

Lemma inject_Z_mul a b : inject_Z (a * b) == inject_Z a * inject_Z b.
Proof. rewrite inject_Z_mult. reflexivity. Qed.

Lemma Qfloor_unique x k : inject_Z k <= x -> x < inject_Z k + 1 -> Qfloor x = k.
Proof.
  intros H1 H2. destruct (Qfloor_bounds x) as [H3 H4].
  assert (inject_Z (Qfloor x) < inject_Z (k + 1)) as A.
  { rewrite inject_Z_add. change (inject_Z 1) with 1. lra. }
  assert (inject_Z k < inject_Z (Qfloor x + 1)) as B.
  { rewrite inject_Z_add. change (inject_Z 1) with 1. lra. }
  rewrite inject_Z_lt_iff in A, B. lia.
Qed.

Lemma rint_bound x : - (1 # 2) <= x - inject_Z (rint x) <= 1 # 2.
Proof.
  unfold rint. destruct (Qfloor_bounds (x + (1#2))) as [H1 H2].
  destruct (Qeq_bool _ _) eqn:E; cbn [andb].
  - apply Qeq_bool_iff in E. destruct (Z.odd _).
    + rewrite inject_Z_sub. change (inject_Z 1) with 1. lra.
    + lra.
  - lra.
Qed.

(** Away from ties the nearest integer is unique. *)
Lemma rint_unique x k : - (1 # 2) < x - inject_Z k < 1 # 2 -> rint x = k.
Proof.
  intros [H1 H2]. unfold rint.
  assert (Qfloor (x + (1#2)) = k) as -> by (apply Qfloor_unique; lra).
  destruct (Qeq_bool _ _) eqn:E; cbn [andb]; [|reflexivity].
  apply Qeq_bool_iff in E. lra.
Qed.

(** At a tie the even neighbour is chosen. *)
Lemma rint_tie_even x k : x == inject_Z k + (1 # 2) ->
  rint x = if Z.even k then k else (k + 1)%Z.
Proof.
  intros H. unfold rint.
  assert (Qfloor (x + (1#2)) = k + 1)%Z as ->.
  { apply Qfloor_unique; rewrite inject_Z_add; change (inject_Z 1) with 1; lra. }
  assert (Qeq_bool (x + (1#2)) (inject_Z (k+1)) = true) as ->.
  { apply Qeq_bool_iff. rewrite inject_Z_add. change (inject_Z 1) with 1. lra. }
  cbn [andb]. replace (k + 1)%Z with (Z.succ k) by lia. rewrite Z.odd_succ.
  destruct (Z.even k); lia.
Qed.

Lemma rint_comp x y : x == y -> rint x = rint y.
Proof.
  intros H. unfold rint. rewrite (Qfloor_comp (x+(1#2)) (y+(1#2))) by lra.
  replace (Qeq_bool (x + (1#2)) (inject_Z (Qfloor (y + (1#2)))))
    with (Qeq_bool (y + (1#2)) (inject_Z (Qfloor (y + (1#2))))); [reflexivity|].
  destruct (Qeq_bool (y + _) _) eqn:E1, (Qeq_bool (x + _) _) eqn:E2; auto.
  - apply Qeq_bool_iff in E1. apply Qeq_bool_neq in E2. exfalso; apply E2. lra.
  - apply Qeq_bool_iff in E2. apply Qeq_bool_neq in E1. exfalso; apply E1. lra.
Qed.

#[global] Instance rint_Proper : Proper (Qeq ==> eq) rint.
Proof. intros x y H. now apply rint_comp. Qed.

Lemma rint_inject k : rint (inject_Z k) = k.
Proof. apply rint_unique. lra. Qed.

(** Either the value is strictly within half of an integer or it is a tie. *)
Lemma near_or_tie x :
  (exists k, - (1 # 2) < x - inject_Z k < 1 # 2) \/ (exists k, x == inject_Z k + (1 # 2)).
Proof.
  destruct (Qfloor_bounds x) as [H1 H2]. set (f := Qfloor x) in *.
  destruct (Qlt_le_dec x (inject_Z f + (1#2))) as [H|H].
  - left. exists f. lra.
  - destruct (Qlt_le_dec (inject_Z f + (1#2)) x) as [H'|H'].
    + left. exists (f + 1)%Z. rewrite inject_Z_add. change (inject_Z 1) with 1. lra.
    + right. exists f. lra.
Qed.

Lemma rint_opp x : rint (- x) = (- rint x)%Z.
Proof.
  destruct (near_or_tie x) as [[k Hk]|[k Hk]].
  - rewrite (rint_unique x k Hk). apply rint_unique. rewrite inject_Z_opp. lra.
  - rewrite (rint_tie_even x k Hk).
    assert (- x == inject_Z (- k - 1) + (1#2)) as H.
    { rewrite inject_Z_sub, inject_Z_opp. change (inject_Z 1) with 1. lra. }
    rewrite (rint_tie_even _ _ H).
    replace (- k - 1)%Z with (- (k + 1))%Z by lia. rewrite Z.even_opp.
    replace (k + 1)%Z with (Z.succ k) by lia. rewrite Z.even_succ, <- Z.negb_even.
    destruct (Z.even k); cbn [negb]; lia.
Qed.

(** Shifting by an even integer commutes with rounding, ties included. *)
Lemma rint_add_even x k : Z.even k = true -> rint (x + inject_Z k) = (rint x + k)%Z.
Proof.
  intros Hk. destruct (near_or_tie x) as [[j Hj]|[j Hj]].
  - rewrite (rint_unique x j Hj). apply rint_unique. rewrite inject_Z_add. lra.
  - rewrite (rint_tie_even x j Hj).
    assert (x + inject_Z k == inject_Z (j + k) + (1#2)) as H by (rewrite inject_Z_add; lra).
    rewrite (rint_tie_even _ _ H). rewrite Z.even_add, Hk.
    destruct (Z.even j); cbn; lia.
Qed.

(** Shifting by any integer commutes with rounding away from ties. *)
Lemma rint_add_notie x k : ~ (exists j, x == inject_Z j + (1#2)) ->
  rint (x + inject_Z k) = (rint x + k)%Z.
Proof.
  intros Hk. destruct (near_or_tie x) as [[j Hj]|Hj]; [|contradiction].
  rewrite (rint_unique x j Hj). apply rint_unique. rewrite inject_Z_add. lra.
Qed.

(** * twopi *)
Lemma twopi_pos : 0 < twopi.
Proof. reflexivity. Qed.
Lemma twopi_nz : ~ twopi == 0.
Proof. pose proof twopi_pos; lra. Qed.
#[global] Opaque twopi.

Lemma cong2pi_refl x : cong2pi x x.
Proof. exists 0%Z. change (inject_Z 0) with 0. lra. Qed.
Lemma cong2pi_sym x y : cong2pi x y -> cong2pi y x.
Proof. intros [k H]. exists (-k)%Z. rewrite H, inject_Z_opp. lra. Qed.
Lemma cong2pi_trans x y z : cong2pi x y -> cong2pi y z -> cong2pi x z.
Proof. intros [k H] [j K]. exists (j + k)%Z. rewrite H, K, inject_Z_add. lra. Qed.
Lemma cong2pi_eq x y : x == y -> cong2pi x y.
Proof. intros H. exists 0%Z. change (inject_Z 0) with 0. lra. Qed.
Lemma cong2pi_add x y x' y' : cong2pi x x' -> cong2pi y y' -> cong2pi (x + y) (x' + y').
Proof. intros [k H] [j K]. exists (k + j)%Z. rewrite H, K, inject_Z_add. lra. Qed.
Lemma cong2pi_sub x y x' y' : cong2pi x x' -> cong2pi y y' -> cong2pi (x - y) (x' - y').
Proof. intros [k H] [j K]. exists (k - j)%Z. rewrite H, K, inject_Z_sub. lra. Qed.
Lemma cong2pi_shift x k : cong2pi (x + twopi * inject_Z k) x.
Proof. exists k. reflexivity. Qed.
#[global] Instance cong2pi_Proper : Proper (Qeq ==> Qeq ==> iff) cong2pi.
Proof.
  intros x x' Hx y y' Hy. unfold cong2pi. split; intros [k H]; exists k.
  - now rewrite <- Hx, <- Hy.
  - now rewrite Hx, Hy.
Qed.

(** * Lists *)
Local Close Scope Q_scope.
Local Open Scope nat_scope.
Lemma seq_snoc s n : seq s (S n) = seq s n ++ [s + n].
Proof. apply seq_S. Qed.

Lemma NoDup_map_inj_in {A B} (f : A -> B) l :
  (forall x y, In x l -> In y l -> f x = f y -> x = y) -> NoDup l -> NoDup (map f l).
Proof.
  induction l as [|a l IH]; intros Hf Hn; cbn; constructor; inversion Hn as [|? ? Ha Hl]; subst.
  - rewrite in_map_iff. intros (y & Hy & Hin). apply Hf in Hy; cbn; auto. now subst.
  - apply IH; auto. intros; apply Hf; cbn; auto.
Qed.

Lemma NoDup_app_intro {A} (l1 l2 : list A) :
  NoDup l1 -> NoDup l2 -> (forall x, In x l1 -> In x l2 -> False) -> NoDup (l1 ++ l2).
Proof.
  induction l1 as [|a l IH]; intros H1 H2 H; cbn; auto.
  inversion H1 as [|? ? Ha Hl]; subst. constructor.
  - rewrite in_app_iff. intros [?|?]; [auto|]. apply (H a); cbn; auto.
  - apply IH; auto. intros x ? ?. apply (H x); cbn; auto.
Qed.

Lemma NoDup_flat_map {A B} (f : A -> list B) l :
  NoDup l -> (forall x, In x l -> NoDup (f x)) ->
  (forall x y b, In x l -> In y l -> In b (f x) -> In b (f y) -> x = y) ->
  NoDup (flat_map f l).
Proof.
  induction l as [|a l IH]; intros Hn H1 H2; cbn; [constructor|].
  inversion Hn as [|? ? Ha Hl]; subst. apply NoDup_app_intro.
  - apply H1; cbn; auto.
  - apply IH; auto; intros; [apply H1|eapply H2]; cbn; eauto.
  - intros b Hb Hb'. apply in_flat_map in Hb' as (y & Hy & Hby).
    assert (a = y) by (eapply H2; cbn; eauto). now subst.
Qed.

Lemma map_nth' {A B} (f : A -> B) l i d d' : i < length l -> nth i (map f l) d' = f (nth i l d).
Proof. intros. rewrite (nth_indep _ d' (f d)) by (now rewrite map_length). apply map_nth. Qed.

Lemma combine_nth' {A B} (l : list A) (l' : list B) i d d' : length l = length l' ->
  nth i (combine l l') (d, d') = (nth i l d, nth i l' d').
Proof. apply combine_nth. Qed.

Lemma list_eq_map_seq {A} (l : list A) d : l = map (fun i => nth i l d) (seq 0 (length l)).
Proof.
  apply nth_ext_len with (d := d); [now rewrite map_length, seq_length|].
  intros i Hi. rewrite (map_nth' _ _ i 0) by (now rewrite seq_length).
  now rewrite seq_nth.
Qed.

Lemma Forall2_nth_iff {A B} (P : A -> B -> Prop) l l' d d' :
  Forall2 P l l' <-> length l = length l' /\ forall i, i < length l -> P (nth i l d) (nth i l' d').
Proof.
  split.
  - intros H. split; [clear -H; induction H; cbn; auto|].
    induction H as [|x y l l' Hxy H IH]; cbn; [lia|]. intros [|i] Hi; auto. apply IH; lia.
  - revert l'. induction l as [|a l IH]; intros [|b l'] [HL H]; cbn in *; try lia; constructor.
    + apply (H 0); lia.
    + apply IH; split; [lia|]. intros i Hi. apply (H (S i)); lia.
Qed.

Lemma flat_map_len {A B} (k : nat) (f : A -> list B) l :
  (forall x, In x l -> length (f x) = k) -> length (flat_map f l) = length l * k.
Proof.
  induction l as [|a l IH]; intros H; cbn; auto.
  rewrite app_length, IH, H; cbn; auto. intros; apply H; cbn; auto.
Qed.

Definition pair_dec (p q : nat * nat) : {p = q} + {p <> q}.
Proof. decide equality; apply Nat.eq_dec. Defined.
