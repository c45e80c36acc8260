(** Lemmas on numpy-style slicing, used by Props_ThreeD.v. *)
From Coq Require Import ZifyBool.
From Verif Require Import Base BaseLemmas ThreeDModel ThreeDSpec.
Import ListNotations.
Set Default Goal Selector "!".

Lemma nth_flat_map_const {A B} (f : A -> list B) k l i j d d' :
  (forall x, In x l -> length (f x) = k) -> i < length l -> j < k ->
  nth (i * k + j) (flat_map f l) d = nth j (f (nth i l d')) d.
Proof.
  revert i. induction l as [|x l IH]; intros i H Hi Hj; [cbn in Hi; lia|].
  cbn [flat_map]. pose proof (H x (or_introl eq_refl)) as Hx. destruct i as [|i].
  - cbn [nth]. rewrite app_nth1 by lia. replace (0 * k + j) with j by lia. reflexivity.
  - rewrite app_nth2 by lia. rewrite Hx. replace (S i * k + j - k) with (i * k + j) by lia.
    cbn [nth]. apply IH; [|cbn in Hi; lia|lia]. intros y Hy. apply H. right. exact Hy.
Qed.

Lemma cart_length sel : length (cart sel) = prod (map (@length nat) sel).
Proof.
  induction sel as [|l ls IH]; [reflexivity|]. cbn [cart map prod fold_right].
  erewrite flat_map_len; [|intros x _; rewrite map_length; apply IH]. reflexivity.
Qed.

Lemma nth_cart_cons l ls i k : i < length l -> k < length (cart ls) ->
  nth (i * length (cart ls) + k) (cart (l :: ls)) [] = nth i l 0 :: nth k (cart ls) [].
Proof.
  intros Hi Hk. cbn [cart]. rewrite (nth_flat_map_const _ (length (cart ls)) l i k [] 0);
    [|intros x _; apply map_length|exact Hi|exact Hk].
  rewrite (map_nth' (cons (nth i l 0)) (cart ls) k [] []) by exact Hk. reflexivity.
Qed.

Lemma slice_all n : slice_indices SAll n = seq 0 n.
Proof. reflexivity. Qed.

Lemma slice_one t n : t < n -> slice_indices (SRange (Z.of_nat t) (Z.of_nat t + 1)) n = [t].
Proof.
  intros H. cbn [slice_indices]. unfold clamp.
  replace (Z.of_nat t <? 0)%Z with false by lia.
  replace (Z.of_nat t + 1 <? 0)%Z with false by lia.
  rewrite !Z.min_r by lia.
  replace (Z.to_nat (Z.of_nat t + 1) - Z.to_nat (Z.of_nat t)) with 1 by lia.
  rewrite Nat2Z.id. reflexivity.
Qed.

(** * Getting one element back out of a sliced array *)
Section Get.
  Context {A : Type} (d : A).

  Lemma getitem3 n0 n1 n2 flat s0 s1 s2 :
    let l0 := slice_indices s0 n0 in let l1 := slice_indices s1 n1 in let l2 := slice_indices s2 n2 in
    exists r, getitem d (NdArray [n0; n1; n2] flat) [s0; s1; s2] = Ok r /\
      length r = length l0 * (length l1 * length l2) /\
      forall a b c, a < length l0 -> b < length l1 -> c < length l2 ->
        nth ((a * length l1 + b) * length l2 + c) r d
        = at3 d flat n1 n2 (nth a l0 0) (nth b l1 0) (nth c l2 0).
  Proof.
    intros l0 l1 l2. unfold getitem. cbn [nd_shape length Nat.ltb Nat.leb Nat.sub repeat app combine map fst snd].
    fold l0 l1 l2.
    eexists. split; [reflexivity|]. split.
    { rewrite map_length, cart_length. cbn [map prod fold_right]. lia. }
    intros a b c Ha Hb Hc.
    assert (L2 : length (cart [l2]) = length l2) by (rewrite cart_length; cbn [map prod fold_right]; lia).
    assert (L1 : length (cart [l1; l2]) = length l1 * length l2)
      by (rewrite cart_length; cbn [map prod fold_right]; lia).
    assert (Hb' : b * length l2 + c < length l1 * length l2) by nia.
    rewrite (map_nth' _ (cart [l0; l1; l2]) _ [] d).
    2: { rewrite cart_length. cbn [map prod fold_right]. nia. }
    replace ((a * length l1 + b) * length l2 + c)
      with (a * length (cart [l1; l2]) + (b * length (cart [l2]) + (c * length (cart []) + 0)))
      by (rewrite L1, L2; cbn; lia).
    rewrite nth_cart_cons; [|exact Ha|rewrite L1, L2; cbn [cart length]; lia].
    rewrite nth_cart_cons; [|exact Hb|rewrite L2; cbn [cart length]; lia].
    rewrite nth_cart_cons; [|exact Hc|cbn; lia].
    unfold at3. cbn [nd_flat ravel prod fold_right cart nth]. f_equal. nia.
  Qed.

  Lemma getitem2 n0 n1 flat s0 s1 :
    let l0 := slice_indices s0 n0 in let l1 := slice_indices s1 n1 in
    exists r, getitem d (NdArray [n0; n1] flat) [s0; s1] = Ok r /\
      length r = length l0 * length l1 /\
      forall a b, a < length l0 -> b < length l1 ->
        nth (a * length l1 + b) r d = nth (nth a l0 0 * n1 + nth b l1 0) flat d.
  Proof.
    intros l0 l1. unfold getitem. cbn [nd_shape length Nat.ltb Nat.leb Nat.sub repeat app combine map fst snd].
    fold l0 l1.
    eexists. split; [reflexivity|]. split.
    { rewrite map_length, cart_length. cbn [map prod fold_right]. lia. }
    intros a b Ha Hb.
    assert (L1 : length (cart [l1]) = length l1) by (rewrite cart_length; cbn [map prod fold_right]; lia).
    rewrite (map_nth' _ (cart [l0; l1]) _ [] d).
    2: { rewrite cart_length. cbn [map prod fold_right]. nia. }
    replace (a * length l1 + b)
      with (a * length (cart [l1]) + (b * length (cart []) + 0))
      by (rewrite L1; cbn; lia).
    rewrite nth_cart_cons; [|exact Ha|rewrite L1; cbn [cart length]; lia].
    rewrite nth_cart_cons; [|exact Hb|cbn; lia].
    cbn [nd_flat ravel prod fold_right cart nth]. f_equal. nia.
  Qed.
End Get.

(** * Enumerating a list through an index bijection *)
Lemma perm_through_index {A} (d : A) flat (f : nat -> nat -> nat) n m :
  length flat = n * m ->
  (forall a b, a < n -> b < m -> f a b < n * m) ->
  (forall a b a' b', a < n -> b < m -> a' < n -> b' < m -> f a b = f a' b' -> a = a' /\ b = b') ->
  Permutation (flat_map (fun a => map (fun b => nth (f a b) flat d) (seq 0 m)) (seq 0 n)) flat.
Proof.
  intros L B I.
  replace (flat_map (fun a => map (fun b => nth (f a b) flat d) (seq 0 m)) (seq 0 n))
    with (map (fun k => nth k flat d) (flat_map (fun a => map (f a) (seq 0 m)) (seq 0 n))).
  2: { rewrite !flat_map_concat_map, concat_map, map_map. f_equal. apply map_ext. intros a.
       rewrite map_map. reflexivity. }
  apply Permutation_trans with (map (fun k => nth k flat d) (seq 0 (length flat)));
    [|rewrite <- list_eq_map_seq; reflexivity].
  apply Permutation_map. rewrite L.
  apply NoDup_Permutation_bis.
  - apply NoDup_flat_map.
    + apply seq_NoDup.
    + intros a Ha. apply in_seq in Ha. apply NoDup_map_inj_in; [|apply seq_NoDup].
      intros b b' Hb Hb' E. apply in_seq in Hb, Hb'. apply (I a b a b') in E; lia.
    + intros a a' x Ha Ha' Hx Hx'. apply in_seq in Ha, Ha'.
      apply in_map_iff in Hx as (b & <- & Hb). apply in_map_iff in Hx' as (b' & E & Hb').
      apply in_seq in Hb, Hb'. apply (I a' b' a b) in E; lia.
  - rewrite seq_length. erewrite flat_map_len; [|intros x _; rewrite map_length, seq_length; reflexivity].
    rewrite seq_length. lia.
  - intros x Hx. apply in_flat_map in Hx as (a & Ha & Hx). apply in_map_iff in Hx as (b & <- & Hb).
    apply in_seq in Ha, Hb. apply in_seq. specialize (B a b). lia.
Qed.
