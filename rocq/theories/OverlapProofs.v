(** Proofs about shared pixels and overlap statistics. *)
From Verif Require Import Base BaseLemmas TileModel TileProofs OverlapModel OverlapSpec.
From Coq Require Import ZifyBool.
Set Default Goal Selector "!".
Local Open Scope Z_scope.

(** ** min and max *)
Lemma maxZ_ub l z : In z l -> z <= maxZ l.
Proof.
  unfold maxZ. generalize (hd 0 l). intros d. induction l as [|a l IH]; [easy|].
  intros [->|H]; cbn [fold_right]; [lia|]. specialize (IH H). lia.
Qed.

Lemma maxZ_in l : l <> [] -> In (maxZ l) l.
Proof.
  unfold maxZ. destruct l as [|a l]; [easy|]. intros _. cbn [hd].
  assert (forall d l, In (fold_right Z.max d l) l \/ fold_right Z.max d l = d) as K.
  { intros d l0. induction l0 as [|b l0 IH]; [now right|]. cbn [fold_right].
    destruct (Z.max_spec b (fold_right Z.max d l0)) as [[? ->]|[? ->]]; [|left; now left].
    destruct IH; [left; now right|now right]. }
  destruct (K a (a :: l)) as [H|H]; [auto|]. rewrite H. now left.
Qed.

Lemma minZ_lb l z : In z l -> minZ l <= z.
Proof.
  unfold minZ. generalize (hd 0 l). intros d. induction l as [|a l IH]; [easy|].
  intros [->|H]; cbn [fold_right]; [lia|]. specialize (IH H). lia.
Qed.

Lemma minZ_in l : l <> [] -> In (minZ l) l.
Proof.
  unfold minZ. destruct l as [|a l]; [easy|]. intros _. cbn [hd].
  assert (forall d l, In (fold_right Z.min d l) l \/ fold_right Z.min d l = d) as K.
  { intros d l0. induction l0 as [|b l0 IH]; [now right|]. cbn [fold_right].
    destruct (Z.min_spec b (fold_right Z.min d l0)) as [[? ->]|[? ->]]; [left; now left|].
    destruct IH; [left; now right|now right]. }
  destruct (K a (a :: l)) as [H|H]; [auto|]. rewrite H. now left.
Qed.

(** ** Sorting *)
Lemma insertZ_perm x l : Permutation (insertZ x l) (x :: l).
Proof.
  induction l as [|y t IH]; [reflexivity|]. cbn [insertZ].
  destruct (x <=? y); [reflexivity|]. rewrite IH. apply perm_swap.
Qed.

Lemma sortZ_perm l : Permutation (sortZ l) l.
Proof.
  induction l as [|a l IH]; [reflexivity|]. cbn [sortZ fold_right]. fold (sortZ l).
  rewrite insertZ_perm. now constructor.
Qed.

Lemma insertZ_sorted x l : StronglySorted Z.le l -> StronglySorted Z.le (insertZ x l).
Proof.
  induction 1 as [|y t Hs IH Hy]; cbn [insertZ]; [now repeat constructor|].
  destruct (Z.leb_spec x y).
  - constructor; [now constructor|]. constructor; [auto|].
    eapply Forall_impl; [|exact Hy]. intros; lia.
  - constructor; [auto|]. apply Forall_forall. intros z Hz.
    apply (Permutation_in z (insertZ_perm x t)) in Hz. destruct Hz as [<-|Hz]; [lia|].
    rewrite Forall_forall in Hy. now apply Hy.
Qed.

Lemma sortZ_sorted l : StronglySorted Z.le (sortZ l).
Proof. induction l; cbn; [constructor|]. now apply insertZ_sorted. Qed.

Lemma sorted_nth l : StronglySorted Z.le l ->
  forall i j, (i <= j < length l)%nat -> nth i l 0 <= nth j l 0.
Proof.
  induction 1 as [|a l Hs IH Ha]; intros i j Hij; [cbn in Hij; lia|].
  destruct j as [|j]; [replace i with O by lia; lia|].
  cbn [length] in Hij. destruct i as [|i]; cbn [nth].
  - rewrite Forall_forall in Ha. apply Ha, nth_In. lia.
  - apply IH. lia.
Qed.

(** ** Shared pixels *)
Lemma first_index_spec z l : In z l -> (first_index z l < length l)%nat /\ nth (first_index z l) l 0 = z.
Proof.
  induction l as [|h t IH]; [easy|]. cbn [first_index length].
  destruct (Z.eqb_spec h z) as [->|N]; [cbn; split; [lia|auto]|].
  intros [->|H]; [easy|]. destruct (IH H). cbn [nth]. split; [lia|auto].
Qed.

Lemma common_in a b z :
  In z (sortZ (nodup Z.eq_dec (filter (fun z => existsb (Z.eqb z) b) a))) <-> In z a /\ In z b.
Proof.
  rewrite sortZ_In, nodup_In, filter_In, existsb_exists.
  split; intros [H1 H2]; split; auto.
  - destruct H2 as (y & Hy & E). apply Z.eqb_eq in E. now subst.
  - exists z. split; [auto|]. apply Z.eqb_refl.
Qed.

Lemma common_nodup a b : NoDup (sortZ (nodup Z.eq_dec (filter (fun z => existsb (Z.eqb z) b) a))).
Proof. eapply Permutation_NoDup; [symmetry; apply sortZ_perm|]. apply NoDup_nodup. Qed.

Lemma wrap_int_mod bits z : 0 < bits -> (wrap_int bits z) mod 2 ^ bits = z mod 2 ^ bits.
Proof.
  intros Hb. unfold wrap_int. rewrite Zminus_mod_idemp_l. f_equal. lia.
Qed.

Section Common.
  Context (bits H W : Z) (c1 c2 : list (Z * Z)).
  Hypothesis Hbits : 0 < bits.
  Hypothesis G1 : in_grid H W c1.
  Hypothesis G2 : in_grid H W c2.
  Hypothesis Hfit : H * W <= 2 ^ bits.
  Hypothesis N1 : c1 <> [].
  Hypothesis N2 : c2 <> [].

  Let m := 1 + Z.max (maxZ (map snd c1)) (maxZ (map snd c2)).
  Let flat := fun p : Z * Z =>
    wrap_int bits (wrap_int bits (fst p * wrap_int bits m) + snd p).

  Lemma m_bound : 1 <= m <= W.
  Proof.
    unfold m. assert (map snd c1 <> []) as M1 by (destruct c1; easy).
    assert (map snd c2 <> []) as M2 by (destruct c2; easy).
    apply maxZ_in in M1, M2. apply in_map_iff in M1 as ([r1 k1] & <- & I1).
    apply in_map_iff in M2 as ([r2 k2] & <- & I2).
    apply G1 in I1. apply G2 in I2. cbn [snd]. lia.
  Qed.

  Lemma flat_mod p : flat p mod 2 ^ bits = (fst p * m + snd p) mod 2 ^ bits.
  Proof.
    unfold flat. rewrite wrap_int_mod by auto.
    rewrite <- Zplus_mod_idemp_l, wrap_int_mod by auto.
    rewrite <- Zmult_mod_idemp_r, wrap_int_mod, Zmult_mod_idemp_r by auto.
    now rewrite Zplus_mod_idemp_l.
  Qed.

  Lemma flat_range p : In p c1 \/ In p c2 ->
    0 <= fst p < H /\ 0 <= snd p < m /\ 0 <= fst p * m + snd p < 2 ^ bits.
  Proof.
    intros Hp. assert (0 <= fst p < H) as A.
    { destruct p as [r k]. cbn. destruct Hp as [Hp|Hp]; [now apply G1 in Hp|now apply G2 in Hp]. }
    assert (0 <= snd p < m) as B.
    { split.
      - destruct p as [r k]. cbn. destruct Hp as [Hp|Hp]; [now apply G1 in Hp|now apply G2 in Hp].
      - unfold m. destruct Hp as [Hp|Hp]; apply (in_map snd) in Hp; apply maxZ_ub in Hp; lia. }
    pose proof m_bound. split; [lia|]. split; [lia|]. split; [nia|].
    assert (fst p * m + snd p < H * m) by nia. assert (H * m <= H * W) by nia. lia.
  Qed.

  Lemma flat_inj p q : In p c1 \/ In p c2 -> In q c1 \/ In q c2 -> flat p = flat q -> p = q.
  Proof.
    intros Hp Hq E. apply (f_equal (fun z => z mod 2 ^ bits)) in E. rewrite !flat_mod in E.
    destruct (flat_range p Hp) as (A & B & C), (flat_range q Hq) as (A' & B' & C').
    rewrite !Z.mod_small in E by auto.
    assert (fst p = fst q) as F by nia. rewrite F in E.
    destruct p, q; cbn in *. f_equal; lia.
  Qed.

  Lemma common_spec ii jj : intersect1d_indices (map flat c1) (map flat c2) = (ii, jj) ->
    length ii = length jj /\
    (forall k, (k < length ii)%nat ->
       (nth k ii O < length c1)%nat /\ (nth k jj O < length c2)%nat /\
       at_pt c1 (nth k ii O) = at_pt c2 (nth k jj O)) /\
    NoDup (map (at_pt c1) ii) /\
    (forall p, In p (map (at_pt c1) ii) <-> In p c1 /\ In p c2).
  Proof.
    unfold intersect1d_indices.
    set (L := sortZ _). intros E. injection E as <- <-.
    assert (forall z, In z L <-> In z (map flat c1) /\ In z (map flat c2)) as HL by (intros; apply common_in).
    assert (forall c z, In z (map flat c) ->
      (first_index z (map flat c) < length c)%nat /\
      flat (at_pt c (first_index z (map flat c))) = z) as FI.
    { intros c z Hz. apply first_index_spec in Hz as [K1 K2]. rewrite map_length in K1. split; [auto|].
      rewrite <- K2 at 2. unfold at_pt. rewrite (map_nth' flat c _ (0, 0)) by auto. reflexivity. }
    assert (forall z, In z L ->
       at_pt c1 (first_index z (map flat c1)) = at_pt c2 (first_index z (map flat c2))) as Eq.
    { intros z Hz. apply HL in Hz as [Z1 Z2]. apply FI in Z1 as [L1 F1], Z2 as [L2 F2].
      apply flat_inj; [left; now apply nth_In|right; now apply nth_In|congruence]. }
    split; [now rewrite !map_length|]. split; [|split].
    - intros k Hk. rewrite map_length in Hk.
      rewrite !(map_nth' _ L k 0) by auto.
      pose proof (nth_In L 0 Hk) as Hz. pose proof (Eq _ Hz) as E. apply HL in Hz as [Z1 Z2].
      apply FI in Z1 as [L1 F1], Z2 as [L2 F2]. auto.
    - rewrite map_map. apply NoDup_map_inj_in; [|apply common_nodup].
      intros x y Hx Hy E. apply HL in Hx as [Hx _], Hy as [Hy _].
      apply FI in Hx as [_ <-], Hy as [_ <-]. rewrite E. reflexivity.
    - intros p. rewrite map_map, in_map_iff. split.
      + intros (z & <- & Hz). pose proof (Eq _ Hz) as E. apply HL in Hz as [Z1 Z2].
        apply FI in Z1 as [L1 F1], Z2 as [L2 F2]. split; [now apply nth_In|]. rewrite E. now apply nth_In.
      + intros [P1 P2]. exists (flat p). split.
        * apply (flat_inj _ p); [left; apply nth_In|now left|]; apply FI; now apply in_map.
        * apply HL. split; now apply in_map.
  Qed.
End Common.

Lemma minZ_flat_neg c : (exists r k, In (r, k) c /\ (r < 0 \/ k < 0)) <->
  c <> [] /\ minZ (flat_map (fun p => [fst p; snd p]) c) < 0.
Proof.
  split.
  - intros (r & k & Hi & Hn). split; [destruct c; easy|].
    assert (In r (flat_map (fun p => [fst p; snd p]) c) /\ In k (flat_map (fun p => [fst p; snd p]) c)) as [A B].
    { rewrite !in_flat_map. split; exists (r, k); cbn; auto. }
    apply minZ_lb in A, B. lia.
  - intros [Hc Hm]. assert (flat_map (fun p => [fst p; snd p]) c <> []) as N by (destruct c; easy).
    apply minZ_in in N. rewrite in_flat_map in N. destruct N as ([r k] & Hi & Hv).
    exists r, k. split; [auto|]. cbn in Hv. intuition lia.
Qed.

(** ** Deciles *)
Lemma decile_pos n i : (i <= 10)%nat -> (0 < n)%nat ->
  let lo := Nat.div ((n - 1) * i) 10 in
  (lo <= n - 1)%nat /\ (10 * lo <= (n - 1) * i < 10 * lo + 10)%nat.
Proof.
  intros Hi Hn lo. pose proof (Nat.div_mod ((n - 1) * i) 10 ltac:(lia)) as D.
  pose proof (Nat.mod_upper_bound ((n - 1) * i) 10 ltac:(lia)). fold lo in D. nia.
Qed.

Local Open Scope Q_scope.

Lemma tenths a b : (a # 10) - inject_Z b == (a - 10 * b # 10).
Proof. unfold Qeq, Qminus, Qplus, Qopp, inject_Z. cbn [Qnum Qden]. lia. Qed.

Lemma decile_between l i : (i <= 10)%nat -> l <> [] ->
  let s := sortZ l in let n := length l in
  let lo := Nat.div ((n - 1) * i) 10 in let hi := Nat.min (S lo) (n - 1) in
  let g := (Z.of_nat ((n - 1) * i) # 10) - inject_Z (Z.of_nat lo) in
  0 <= g /\ g < 1 /\
  decile l i == inject_Z (nth lo s 0%Z) + g * (inject_Z (nth hi s 0%Z) - inject_Z (nth lo s 0%Z)) /\
  inject_Z (nth lo s 0%Z) <= decile l i /\ decile l i <= inject_Z (nth hi s 0%Z).
Proof.
  intros Hi Hl s n lo hi g.
  assert (0 < n)%nat as Hn by (unfold n; destruct l; [easy|cbn; lia]).
  destruct (decile_pos n i Hi Hn) as [P1 P2]. fold lo in P1, P2.
  assert (g == (Z.of_nat ((n - 1) * i) - 10 * Z.of_nat lo # 10)) as Eg.
  { unfold g. apply tenths. }
  assert (0 <= g) as G0 by (rewrite Eg; unfold Qle; cbn [Qnum Qden]; lia).
  assert (g < 1) as G1 by (rewrite Eg; unfold Qlt; cbn [Qnum Qden]; lia).
  assert (inject_Z (nth lo s 0%Z) <= inject_Z (nth hi s 0%Z)) as LH.
  { rewrite inject_Z_le_iff. apply sorted_nth; [apply sortZ_sorted|].
    unfold s. rewrite sortZ_length. fold n. unfold hi. lia. }
  assert (decile l i == inject_Z (nth lo s 0%Z) + g * (inject_Z (nth hi s 0%Z) - inject_Z (nth lo s 0%Z))) as E
    by reflexivity.
  repeat split; auto; rewrite E; nra.
Qed.

Lemma decile_mono l i j : (i <= j)%nat -> (j <= 10)%nat -> l <> [] -> decile l i <= decile l j.
Proof.
  intros Hij Hj Hl.
  destruct (decile_between l i ltac:(lia) Hl) as (A0 & A1 & AE & AL & AH).
  destruct (decile_between l j Hj Hl) as (B0 & B1 & BE & BL & BH).
  set (s := sortZ l) in *. set (n := length l) in *.
  set (li := Nat.div ((n - 1) * i) 10) in *. set (lj := Nat.div ((n - 1) * j) 10) in *.
  assert (li <= lj)%nat as Hl' by (apply Nat.div_le_mono; nia).
  assert (0 < n)%nat as Hn by (unfold n; destruct l; [easy|cbn; lia]).
  destruct (decile_pos n j Hj Hn) as [P1 P2]. fold lj in P1, P2.
  destruct (Nat.eq_dec li lj) as [E|N].
  - rewrite AE, BE. rewrite E in *.
    assert (inject_Z (nth lj s 0%Z) <= inject_Z (nth (Nat.min (S lj) (n - 1)) s 0%Z)) as LH by lra.
    assert ((Z.of_nat ((n - 1) * i) # 10) <= (Z.of_nat ((n - 1) * j) # 10)) as LE.
    { unfold Qle. cbn [Qnum Qden]. nia. }
    nra.
  - eapply Qle_trans; [exact AH|]. eapply Qle_trans; [|exact BL].
    rewrite inject_Z_le_iff. apply sorted_nth; [apply sortZ_sorted|].
    unfold s. rewrite sortZ_length. fold n. lia.
Qed.

Lemma decile_0 l : l <> [] -> decile l 0 == inject_Z (minZ l).
Proof.
  intros Hl. destruct (decile_between l 0 ltac:(lia) Hl) as (A0 & A1 & AE & AL & AH).
  rewrite AE, Nat.mul_0_r. change (0 / 10)%nat with 0%nat. cbn [Z.of_nat].
  setoid_replace ((0 # 10) - inject_Z 0) with 0 by reflexivity.
  ring_simplify. rewrite inject_Z_eq_iff. apply Z.le_antisymm.
  - assert (In (minZ l) (sortZ l)) as H by (apply sortZ_In, minZ_in; auto).
    apply In_nth with (d := 0%Z) in H as (k & Hk & <-).
    apply sorted_nth; [apply sortZ_sorted|lia].
  - apply minZ_lb. apply sortZ_In. apply nth_In. rewrite sortZ_length. destruct l; [easy|cbn; lia].
Qed.

Lemma decile_10 l : l <> [] -> decile l 10 == inject_Z (maxZ l).
Proof.
  intros Hl. destruct (decile_between l 10 ltac:(lia) Hl) as (A0 & A1 & AE & AL & AH).
  rewrite AE. rewrite Nat.div_mul by lia. set (n := length l) in *.
  assert (0 < n)%nat as Hn by (unfold n; destruct l; [easy|cbn; lia]).
  replace (Nat.min (S (n - 1)) (n - 1)) with (n - 1)%nat by lia. ring_simplify.
  rewrite inject_Z_eq_iff. apply Z.le_antisymm.
  - apply maxZ_ub. apply sortZ_In. apply nth_In. rewrite sortZ_length. lia.
  - assert (In (maxZ l) (sortZ l)) as H by (apply sortZ_In, maxZ_in; auto).
    apply In_nth with (d := 0%Z) in H as (k & Hk & <-). rewrite sortZ_length in Hk.
    apply sorted_nth; [apply sortZ_sorted|]. rewrite sortZ_length. fold n. lia.
Qed.

Lemma decile_const l k i : l <> [] -> (i <= 10)%nat -> (forall z, In z l -> z = k) -> decile l i == inject_Z k.
Proof.
  intros Hl Hi Hk.
  assert (minZ l = k) as E1 by (apply Hk, minZ_in; auto).
  assert (maxZ l = k) as E2 by (apply Hk, maxZ_in; auto).
  pose proof (decile_mono l 0 i ltac:(lia) Hi Hl) as H0.
  pose proof (decile_mono l i 10 Hi ltac:(lia) Hl) as H1.
  rewrite decile_0 in H0 by auto. rewrite decile_10 in H1 by auto. rewrite E1 in H0. rewrite E2 in H1. lra.
Qed.

Lemma how_many_perm p l l' : Permutation l l' -> how_many p l = how_many p l'.
Proof.
  unfold how_many. induction 1 as [|x l l' H IH|x y l|l l' l'' H1 IH1 H2 IH2]; cbn [filter]; auto.
  - destruct (p x); cbn; lia.
  - destruct (p x), (p y); reflexivity.
  - lia.
Qed.

Lemma how_many_prefix p l k : (k <= length l)%nat -> (forall i, (i < k)%nat -> p (nth i l 0%Z) = true) ->
  (k <= how_many p l)%nat.
Proof.
  revert k. induction l as [|a l IH]; intros k Hk H; [cbn in Hk; lia|].
  destruct k as [|k]; [lia|]. unfold how_many. cbn [filter].
  pose proof (H 0%nat ltac:(lia)) as Ha. cbn [nth] in Ha. rewrite Ha. cbn [length]. cbn [length] in Hk.
  specialize (IH k ltac:(lia)). unfold how_many in IH. apply le_n_S, IH.
  intros i Hi. apply (H (S i)). lia.
Qed.

Lemma how_many_suffix p l k : (k <= length l)%nat ->
  (forall i, (k <= i < length l)%nat -> p (nth i l 0%Z) = true) ->
  (length l - k <= how_many p l)%nat.
Proof.
  revert k. induction l as [|a l IH]; intros k Hk H; [cbn; lia|].
  unfold how_many. cbn [filter length]. cbn [length] in Hk. destruct k as [|k].
  - pose proof (H 0%nat ltac:(cbn; lia)) as Ha. cbn [nth] in Ha. rewrite Ha. cbn [length].
    specialize (IH 0%nat ltac:(lia)). unfold how_many in IH. rewrite Nat.sub_0_r in IH.
    apply le_n_S, IH. intros i Hi. apply (H (S i)). cbn; lia.
  - specialize (IH k ltac:(lia)). unfold how_many in IH. cbn [Nat.sub].
    etransitivity; [apply IH|destruct (p a); cbn; lia].
    intros i Hi. apply (H (S i)). cbn; lia.
Qed.

(** At least as many entries at or below the decile, and at or above it, as its
    rank demands. *)
Lemma decile_rank l i : (i <= 10)%nat -> l <> [] ->
  (S (Nat.div ((length l - 1) * i) 10) <= how_many (not_above (decile l i)) l)%nat /\
  (length l - Nat.div ((length l - 1) * i + 9) 10 <= how_many (not_below (decile l i)) l)%nat.
Proof.
  intros Hi Hl.
  destruct (decile_between l i Hi Hl) as (A0 & A1 & AE & AL & AH).
  set (s := sortZ l) in *. set (n := length l) in *.
  set (lo := Nat.div ((n - 1) * i) 10) in *.
  assert (0 < n)%nat as Hn by (unfold n; destruct l; [easy|cbn; lia]).
  destruct (decile_pos n i Hi Hn) as [P1 P2]. fold lo in P1, P2.
  assert (length s = n) as Ls by apply sortZ_length.
  rewrite <- !(how_many_perm _ _ _ (sortZ_perm l)). fold s.
  split.
  - apply how_many_prefix; [lia|]. intros k Hk. apply Qle_bool_iff.
    eapply Qle_trans; [|exact AL]. rewrite inject_Z_le_iff. apply sorted_nth; [apply sortZ_sorted|].
    rewrite Ls. lia.
  - rewrite <- Ls. set (up := Nat.div ((n - 1) * i + 9) 10).
    rewrite Ls. fold up.
    pose proof (Nat.div_mod ((n - 1) * i + 9) 10 ltac:(lia)) as D.
    pose proof (Nat.mod_upper_bound ((n - 1) * i + 9) 10 ltac:(lia)) as D'. fold up in D.
    assert (up <= n - 1)%nat as Hup by nia.
    rewrite <- Ls. apply how_many_suffix; [lia|]. intros k Hk. apply Qle_bool_iff.
    assert (up = lo \/ up = S lo) as [E|E] by nia.
    + (* exact position *)
      assert (decile l i == inject_Z (nth lo s 0%Z)) as ->.
      { rewrite AE. assert ((n - 1) * i = 10 * lo)%nat as Ex by nia.
        rewrite Ex. setoid_replace ((Z.of_nat (10 * lo) # 10) - inject_Z (Z.of_nat lo)) with 0; [ring|].
        rewrite tenths. unfold Qeq. cbn [Qnum Qden]. lia. }
      rewrite inject_Z_le_iff. apply sorted_nth; [apply sortZ_sorted|lia].
    + eapply Qle_trans; [exact AH|]. rewrite inject_Z_le_iff. apply sorted_nth; [apply sortZ_sorted|lia].
Qed.

(** The middle decile is the value shared by a strict majority. *)
Lemma how_many_disjoint p q l : (forall z, In z l -> p z = true -> q z = true -> False) ->
  (how_many p l + how_many q l <= length l)%nat.
Proof.
  unfold how_many. induction l as [|a l IH]; intros H; [cbn; lia|]. cbn [filter length].
  specialize (IH (fun z Hz => H z (or_intror Hz))). pose proof (H a (or_introl eq_refl)).
  destruct (p a), (q a); cbn [length]; lia.
Qed.

Lemma median_majority l k : (length l < 2 * how_many (Z.eqb k) l)%nat -> decile l 5 == inject_Z k.
Proof.
  intros Hm. assert (l <> []) as Hl by (intros ->; cbn in Hm; lia).
  destruct (decile_rank l 5 ltac:(lia) Hl) as [R1 R2].
  set (n := length l) in *.
  assert (n - Nat.div ((n - 1) * 5 + 9) 10 = n - Nat.div n 2)%nat as E1.
  { f_equal. pose proof (Nat.div_mod ((n - 1) * 5 + 9) 10 ltac:(lia)).
    pose proof (Nat.mod_upper_bound ((n - 1) * 5 + 9) 10 ltac:(lia)).
    pose proof (Nat.div_mod n 2 ltac:(lia)). pose proof (Nat.mod_upper_bound n 2 ltac:(lia)).
    assert (0 < n)%nat by (unfold n; destruct l; [easy|cbn; lia]). lia. }
  assert (Nat.div ((n - 1) * 5) 10 = Nat.div (n - 1) 2)%nat as E2.
  { pose proof (Nat.div_mod ((n - 1) * 5) 10 ltac:(lia)).
    pose proof (Nat.mod_upper_bound ((n - 1) * 5) 10 ltac:(lia)).
    pose proof (Nat.div_mod (n - 1) 2 ltac:(lia)). pose proof (Nat.mod_upper_bound (n - 1) 2 ltac:(lia)). lia. }
  rewrite E1 in R2. rewrite E2 in R1.
  pose proof (Nat.div_mod n 2 ltac:(lia)). pose proof (Nat.mod_upper_bound n 2 ltac:(lia)).
  pose proof (Nat.div_mod (n - 1) 2 ltac:(lia)). pose proof (Nat.mod_upper_bound (n - 1) 2 ltac:(lia)).
  destruct (Q_dec (decile l 5) (inject_Z k)) as [[L|G]|E]; [| |exact E].
  - pose proof (how_many_disjoint (Z.eqb k) (not_above (decile l 5)) l) as D. fold n in D. exfalso.
    assert (how_many (Z.eqb k) l + how_many (not_above (decile l 5)) l <= n)%nat; [|lia].
    apply D. intros z _ Ez Hz. apply Z.eqb_eq in Ez. subst z. apply Qle_bool_iff in Hz. lra.
  - pose proof (how_many_disjoint (Z.eqb k) (not_below (decile l 5)) l) as D. fold n in D. exfalso.
    assert (how_many (Z.eqb k) l + how_many (not_below (decile l 5)) l <= n)%nat; [|lia].
    apply D. intros z _ Ez Hz. apply Z.eqb_eq in Ez. subst z. apply Qle_bool_iff in Hz. lra.
Qed.

(** ** The whole statistics function *)
Lemma tol_small k : (-32768 <= k <= 32767)%Z -> (1 # 100) + (1 # 100000) * inject_Z (Z.abs k) < 1 # 2.
Proof.
  intros H. assert (inject_Z (Z.abs k) <= inject_Z 32768) as L by (rewrite inject_Z_le_iff; lia).
  change (inject_Z 32768) with (32768 # 1) in L. lra.
Qed.

Lemma wrap16_id k : (-32768 <= k <= 32767)%Z -> wrap_int 16 k = k.
Proof. intros H. unfold wrap_int. change (2 ^ (16 - 1))%Z with 32768%Z. change (2 ^ 16)%Z with 65536%Z.
  rewrite Z.mod_small; lia. Qed.

Lemma wrap16_range k : (-32768 <= wrap_int 16 k <= 32767)%Z.
Proof. unfold wrap_int. change (2 ^ (16 - 1))%Z with 32768%Z. change (2 ^ 16)%Z with 65536%Z.
  pose proof (Z.mod_pos_bound (k + 32768) 65536 ltac:(lia)). lia. Qed.

Lemma Qabs_scale d k : Qabs (d - twopi * inject_Z k) == twopi * Qabs (d / twopi - inject_Z k).
Proof.
  rewrite <- (Qabs_pos twopi) at 2 by (apply Qlt_le_weak, twopi_pos).
  rewrite <- Qabs_Qmult. apply Qabs_wd. field. apply twopi_nz.
Qed.

Lemma close_iff x1 x2 :
  close_int (cycle_diff x1 x2) (nint16 (cycle_diff x1 x2)) = true <-> exists k, cycles_within_tol (x2 - x1) k.
Proof.
  unfold close_int. rewrite Qle_bool_iff. unfold cycle_diff, cycles_within_tol. set (d := x2 - x1).
  pose proof twopi_pos as Hp. split.
  - intros H. exists (nint16 (d / twopi)). split; [apply wrap16_range|].
    rewrite Qabs_scale. set (y := Qabs _) in *. nra.
  - intros (k & Hk & H). rewrite Qabs_scale in H.
    assert (Qabs (d / twopi - inject_Z k) <= (1 # 100) + (1 # 100000) * inject_Z (Z.abs k)) as H'.
    { set (y := Qabs _) in *. apply (Qmult_le_l _ _ twopi); auto. }
    assert (rint (d / twopi) = k) as E.
    { apply rint_unique. pose proof (tol_small k Hk). apply Qabs_Qle_condition in H'. split; lra. }
    unfold nint16. rewrite E, wrap16_id by auto. exact H'.
Qed.

Lemma nint_eq x1 x2 k : cycles_within_tol (x2 - x1) k -> nint16 (cycle_diff x1 x2) = k.
Proof.
  intros (Hk & H). pose proof twopi_pos as Hp. rewrite Qabs_scale in H.
  assert (Qabs ((x2 - x1) / twopi - inject_Z k) <= (1 # 100) + (1 # 100000) * inject_Z (Z.abs k)) as H'.
  { set (y := Qabs _) in *. apply (Qmult_le_l _ _ twopi); auto. }
  unfold nint16, cycle_diff.
  assert (rint ((x2 - x1) / twopi) = k) as ->; [|now apply wrap16_id].
  apply rint_unique. pose proof (tol_small k Hk). apply Qabs_Qle_condition in H'. split; lra.
Qed.

Lemma nint_within x1 x2 : close_int (cycle_diff x1 x2) (nint16 (cycle_diff x1 x2)) = true ->
  cycles_within_tol (x2 - x1) (nint16 (cycle_diff x1 x2)).
Proof. intros H. apply close_iff in H as [k Hk]. now rewrite (nint_eq _ _ _ Hk). Qed.

Lemma seq_map_ne {A} (f : nat -> A) n : (0 < n)%nat -> map f (seq 0 n) <> [].
Proof. destruct n; [lia|easy]. Qed.

Lemma deciles_of_ok n f : (0 < n)%nat ->
  deciles_of n f (map (decile (map f (seq 0 n))) (seq 0 11)).
Proof.
  intros Hn. pose proof (seq_map_ne f n Hn) as Ne. set (l := map f (seq 0 n)) in *.
  assert (length l = n) as Ll by (unfold l; now rewrite map_length, seq_length).
  unfold deciles_of. fold l.
  assert (forall i, (i <= 10)%nat -> nth i (map (decile l) (seq 0 11)) 0 = decile l i) as Nd.
  { intros i Hi. rewrite (map_nth' _ _ _ 0%nat) by (rewrite seq_length; lia).
    now rewrite seq_nth by lia. }
  assert (forall z, In z l <-> exists p, (p < n)%nat /\ f p = z) as Il.
  { intros z. unfold l. rewrite in_map_iff. split.
    - intros (p & <- & Hp). rewrite in_seq in Hp. exists p. split; [lia|auto].
    - intros (p & Hp & <-). exists p. split; [auto|]. apply in_seq. lia. }
  cbn zeta. split; [now rewrite map_length, seq_length|]. split; [|split; [|split; [|split; [|split]]]].
  - intros i j Hij. rewrite !Nd by lia. apply decile_mono; auto; lia.
  - pose proof (minZ_in l Ne) as M. apply Il in M as (p & Hp & E). exists p. split; [auto|].
    rewrite Nd, decile_0 by (auto; lia). now rewrite E.
  - intros p Hp. rewrite !Nd, decile_0, decile_10, !inject_Z_le_iff by (auto; lia).
    split; [apply minZ_lb|apply maxZ_ub]; apply Il; eauto.
  - pose proof (maxZ_in l Ne) as M. apply Il in M as (p & Hp & E). exists p. split; [auto|].
    rewrite Nd, decile_10 by (auto; lia). now rewrite E.
  - intros i Hi. rewrite Nd by auto. destruct (decile_rank l i Hi Ne) as [R1 R2]. rewrite Ll in R1, R2.
    pose proof (Nat.div_mod ((n - 1) * i) 10 ltac:(lia)).
    pose proof (Nat.mod_upper_bound ((n - 1) * i) 10 ltac:(lia)).
    pose proof (Nat.div_mod ((n - 1) * i + 9) 10 ltac:(lia)).
    pose proof (Nat.mod_upper_bound ((n - 1) * i + 9) 10 ltac:(lia)). lia.
  - intros i Hi k Hk. rewrite Nd by auto. apply decile_const; auto.
    intros z Hz. apply Il in Hz as (p & Hp & <-). auto.
Qed.

Section Stats.
  Context (bands n : nat) (b1 b2 : ndarray).
  Hypothesis A1 : array2 bands n b1.
  Hypothesis A2 : array2 bands n b2.
  Hypothesis Hn : (11 <= n)%nat.

  Let K := fun b p => nint16 (cycle_diff (pix b1 b p) (pix b2 b p)).

  Lemma diff_rows :
    map (fun r => map (fun xy => cycle_diff (fst xy) (snd xy)) (combine (fst r) (snd r)))
        (combine (nd_rows b1) (nd_rows b2)) =
    map (fun b => map (fun p => cycle_diff (pix b1 b p) (pix b2 b p)) (seq 0 n)) (seq 0 bands).
  Proof.
    destruct A1 as (S1 & L1 & R1), A2 as (S2 & L2 & R2).
    apply (nth_ext_len _ _ []).
    { rewrite !map_length, seq_length, combine_length. lia. }
    intros b Hb. rewrite map_length, combine_length in Hb.
    rewrite (map_nth' _ _ _ ([], [])) by (rewrite combine_length; lia).
    rewrite (map_nth' _ (seq 0 bands) _ 0%nat), seq_nth by (rewrite ?seq_length; lia).
    rewrite (combine_nth' _ _ _ [] []) by lia. cbn [fst snd Nat.add].
    assert (length (nth b (nd_rows b1) []) = n) as E1 by (apply R1, nth_In; lia).
    assert (length (nth b (nd_rows b2) []) = n) as E2 by (apply R2, nth_In; lia).
    apply (nth_ext_len _ _ 0).
    { rewrite !map_length, seq_length, combine_length. lia. }
    intros p Hp. rewrite map_length, combine_length in Hp.
    rewrite (map_nth' _ _ _ (0, 0)) by (rewrite combine_length; lia).
    rewrite (map_nth' _ (seq 0 n) _ 0%nat), seq_nth by (rewrite ?seq_length; lia).
    rewrite (combine_nth' _ _ _ 0 0) by lia. reflexivity.
  Qed.

  Lemma stats_check D : D = map (fun b => map (fun p => cycle_diff (pix b1 b p) (pix b2 b p)) (seq 0 n)) (seq 0 bands) ->
    forallb (fun r => forallb (fun dn => close_int (fst dn) (snd dn)) (combine (fst r) (snd r)))
      (combine D (map (map nint16) D)) = true <->
    (forall b p, (b < bands)%nat -> (p < n)%nat -> exists k, cycles_within_tol (pix b2 b p - pix b1 b p) k).
  Proof.
    intros ->. rewrite forallb_forall. split.
    - intros H b p Hb Hp. apply close_iff.
      set (row := fun b => map (fun p => cycle_diff (pix b1 b p) (pix b2 b p)) (seq 0 n)) in *.
      assert (In (row b, map nint16 (row b)) (combine (map row (seq 0 bands)) (map (map nint16) (map row (seq 0 bands))))) as I.
      { rewrite map_map. clear -Hb. assert (In b (seq 0 bands)) as Ib by (apply in_seq; lia).
        induction (seq 0 bands) as [|a t IH]; [easy|]. destruct Ib as [->|Ib]; [now left|right; auto]. }
      apply H in I. rewrite forallb_forall in I. cbn [fst snd] in I.
      specialize (I (cycle_diff (pix b1 b p) (pix b2 b p), nint16 (cycle_diff (pix b1 b p) (pix b2 b p)))).
      apply I. unfold row. rewrite map_map. clear -Hp. assert (In p (seq 0 n)) as Ib by (apply in_seq; lia).
      induction (seq 0 n) as [|a t IH]; [easy|]. destruct Ib as [->|Ib]; [now left|right; auto].
    - intros H [r r'] I. cbn [fst snd]. rewrite map_map in I.
      assert (exists b, (b < bands)%nat /\ r = map (fun p => cycle_diff (pix b1 b p) (pix b2 b p)) (seq 0 n) /\
        r' = map nint16 r) as (b & Hb & -> & ->).
      { assert (forall b, In b (seq 0 bands) -> (b < bands)%nat) as Hs by (intros b; rewrite in_seq; lia).
        revert I Hs. induction (seq 0 bands) as [|a t IH]; [easy|].
        intros [E|I] Hs; [|apply IH; auto; intros; apply Hs; now right].
        exists a. injection E as <- <-. split; [apply Hs; now left|auto]. }
      clear I. rewrite forallb_forall. intros [d z] I'. cbn [fst snd]. rewrite map_map in I'.
      assert (exists p, (p < n)%nat /\ d = cycle_diff (pix b1 b p) (pix b2 b p) /\ z = nint16 d) as (p & Hp & -> & ->).
      { assert (forall b, In b (seq 0 n) -> (b < n)%nat) as Hs by (intros p; rewrite in_seq; lia).
        revert I' Hs. induction (seq 0 n) as [|a t IH]; [easy|].
        intros [E|I'] Hs; [|apply IH; auto; intros; apply Hs; now right].
        exists a. injection E as <- <-. split; [apply Hs; now left|auto]. }
      apply close_iff. auto.
  Qed.

  Lemma stats_run :
    pairwise_unwrapped_diff_deciles b1 b2 =
    let D := map (fun b => map (fun p => cycle_diff (pix b1 b p) (pix b2 b p)) (seq 0 n)) (seq 0 bands) in
    if negb (forallb (fun r => forallb (fun dn => close_int (fst dn) (snd dn)) (combine (fst r) (snd r)))
      (combine D (map (map nint16) D))) then Err AssertionError
    else Ok (map (fun b => map (decile (map (K b) (seq 0 n))) (seq 0 11)) (seq 0 bands)).
  Proof.
    unfold pairwise_unwrapped_diff_deciles. destruct A1 as (S1 & _), A2 as (S2 & _).
    rewrite S1, S2. destruct (list_eq_dec _ _ _); [|easy]. cbn [negb length Nat.eqb nth].
    destruct (Nat.ltb_spec n 11); [lia|]. rewrite diff_rows. cbn zeta.
    destruct (forallb _ _); [|reflexivity]. cbn [negb]. f_equal. rewrite !map_map.
    apply map_ext. intros b. unfold K. now rewrite map_map.
  Qed.

  Lemma stats_ok R : pairwise_unwrapped_diff_deciles b1 b2 = Ok R ->
    length R = bands /\ exists k : nat -> nat -> Z,
      (forall b p, (b < bands)%nat -> (p < n)%nat -> cycles_within_tol (pix b2 b p - pix b1 b p) (k b p)) /\
      (forall b, (b < bands)%nat -> deciles_of n (k b) (nth b R [])).
  Proof.
    rewrite stats_run. cbn zeta. destruct (forallb _ _) eqn:E; [|discriminate].
    cbn [negb]. intros H. injection H as <-.
    split; [now rewrite map_length, seq_length|]. exists K. split.
    - intros b p Hb Hp. apply (stats_check _ eq_refl) with (b := b) (p := p) in E; auto.
      apply close_iff in E. apply nint_within. exact E.
    - intros b Hb. rewrite (map_nth' _ _ _ 0%nat), seq_nth by (rewrite ?seq_length; auto).
      apply deciles_of_ok. lia.
  Qed.

  Lemma stats_iff :
    ((exists R, pairwise_unwrapped_diff_deciles b1 b2 = Ok R) <->
      forall b p, (b < bands)%nat -> (p < n)%nat -> exists k, cycles_within_tol (pix b2 b p - pix b1 b p) k) /\
    (forall e, pairwise_unwrapped_diff_deciles b1 b2 = Err e -> e = AssertionError).
  Proof.
    rewrite stats_run. cbn zeta. rewrite <- (stats_check _ eq_refl).
    destruct (forallb _ _); cbn [negb]; split.
    - split; eauto.
    - discriminate.
    - split; [intros [? ?]; discriminate|discriminate].
    - congruence.
  Qed.

  Lemma stats_majority R b k : pairwise_unwrapped_diff_deciles b1 b2 = Ok R -> (b < bands)%nat ->
    (forall ps, NoDup ps -> (forall p, In p ps <-> (p < n)%nat /\ cycles_within_tol (pix b2 b p - pix b1 b p) k) ->
       (n < 2 * length ps)%nat) ->
    nth 5 (nth b R []) 0 == inject_Z k.
  Proof.
    rewrite stats_run. cbn zeta. destruct (forallb _ _) eqn:E; [|discriminate].
    cbn [negb]. intros H Hb Hm. injection H as <-.
    rewrite (map_nth' _ _ _ 0%nat), seq_nth by (rewrite ?seq_length; auto). cbn [Nat.add].
    change (nth 5 (map (decile (map (K b) (seq 0 n))) (seq 0 11)) 0) with (decile (map (K b) (seq 0 n)) 5).
    apply median_majority. rewrite map_length, seq_length.
    specialize (Hm (filter (fun p => Z.eqb k (K b p)) (seq 0 n))).
    assert (how_many (Z.eqb k) (map (K b) (seq 0 n)) = length (filter (fun p => Z.eqb k (K b p)) (seq 0 n))) as ->.
    { unfold how_many. clear. induction (seq 0 n) as [|a t IH]; [reflexivity|]. cbn [map filter].
      destruct (Z.eqb k (K b a)); cbn; lia. }
    apply Hm; [apply NoDup_filter, seq_NoDup|].
    intros p. rewrite filter_In, in_seq, Z.eqb_eq. unfold K. split.
    - intros [Hp ->]. split; [lia|]. apply nint_within. apply close_iff.
      apply (proj1 (stats_check _ eq_refl) E); auto; lia.
    - intros [Hp Hk]. split; [lia|]. symmetry. now apply nint_eq.
  Qed.
End Stats.

(** ** What is recorded *)
Lemma common_range bits c1 c2 ii jj : find_common_points bits c1 c2 = Ok (ii, jj) ->
  length ii = length jj /\ forall k, (k < length ii)%nat ->
    (nth k ii O < length c1)%nat /\ (nth k jj O < length c2)%nat.
Proof.
  unfold find_common_points. destruct c1 as [|p1 c1']; [discriminate|]. destruct c2 as [|p2 c2']; [discriminate|].
  set (c1 := p1 :: c1'). set (c2 := p2 :: c2'). destruct (_ <? 0)%Z; [discriminate|]. destruct (_ <? 0)%Z; [discriminate|].
  set (flat := fun p => _). unfold intersect1d_indices. set (L := sortZ _).
  assert (forall z, In z L <-> In z (map flat c1) /\ In z (map flat c2)) as HL by (intros; apply common_in).
  clearbody L. intros E. assert (ii = map (fun z => first_index z (map flat c1)) L) as -> by congruence.
  assert (jj = map (fun z => first_index z (map flat c2)) L) as -> by congruence.
  rewrite !map_length. split; [auto|]. intros k Hk. rewrite !(map_nth' _ L _ 0%Z) by auto.
  destruct (proj1 (HL _) (nth_In L 0%Z Hk)) as [I1 I2].
  apply first_index_spec in I1 as [I1 _]. apply first_index_spec in I2 as [I2 _]. rewrite map_length in I1, I2. auto.
Qed.

Lemma loaded_phase f t bands b i : tile_bands bands f -> (b < bands)%nat -> (i < length (tf_points f))%nat ->
  (nth i (nth b (snd (load_uw_tile f t)) []) 0 == phase_of f b i)%Q.
Proof.
  intros (L1 & L2 & L3) Hb Hi. unfold load_uw_tile, phase_of. cbn [snd].
  rewrite (map_nth' _ _ _ ([], 0%Q)) by (rewrite combine_length; lia).
  rewrite (combine_nth' _ _ _ [] 0%Q) by lia. cbn [fst snd].
  rewrite (map_nth' _ _ _ 0%Q) by (rewrite L3; auto; apply nth_In; lia). reflexivity.
Qed.

Lemma taken_array f t bands c : tile_bands bands f ->
  array2 bands (length c) (nd_of (length c) (take_cols (snd (load_uw_tile f t)) c)) /\
  forall b m, (b < bands)%nat -> (m < length c)%nat -> (nth m c O < length (tf_points f))%nat ->
    (pix (nd_of (length c) (take_cols (snd (load_uw_tile f t)) c)) b m == phase_of f b (nth m c O))%Q.
Proof.
  intros T. pose proof T as (L1 & L2 & L3).
  assert (length (snd (load_uw_tile f t)) = bands) as L.
  { cbn. rewrite map_length, combine_length. lia. }
  split.
  - unfold nd_of, array2. cbn [nd_shape nd_rows]. unfold take_cols. rewrite map_length, L. split; [auto|]. split; [auto|].
    intros r Hr. apply in_map_iff in Hr as (row & <- & _). apply map_length.
  - intros b m Hb Hm Hi. unfold pix, nd_of. cbn [nd_rows]. unfold take_cols.
    rewrite (map_nth' _ _ _ []) by lia. rewrite (map_nth' _ c _ O) by auto. now apply (loaded_phase f t bands).
Qed.

Lemma towards_zero_ok x : towards_zero x (qtrunc0 x).
Proof.
  unfold towards_zero, qtrunc0. destruct (Qle_bool 0 x) eqn:E.
  - apply Qle_bool_iff in E. split; [|intros; exfalso; lra]. intros _. apply Qfloor_bounds.
  - assert (x < 0)%Q as N. { destruct (Qlt_le_dec x 0) as [|C]; [auto|]. apply Qle_bool_iff in C. congruence. }
    split; [intros; lra|]. intros _. unfold Qceiling. rewrite inject_Z_opp.
    pose proof (Qfloor_bounds (- x)). lra.
Qed.

Lemma towards_zero_int x k s : (x == inject_Z k)%Q -> towards_zero x s -> s = k.
Proof.
  intros E [A B]. destruct (Qlt_le_dec x 0) as [C|C].
  - specialize (B C). rewrite E in B. destruct B as [B1 B2].
    assert (inject_Z (s - 1) < inject_Z k)%Q as B3 by (rewrite inject_Z_sub; exact B1).
    apply (proj1 (inject_Z_lt_iff _ _)) in B3. apply (proj1 (inject_Z_le_iff _ _)) in B2. lia.
  - specialize (A C). rewrite E in A. destruct A as [A1 A2].
    assert (inject_Z k < inject_Z (s + 1))%Q as A3 by (rewrite inject_Z_add; exact A2).
    apply (proj1 (inject_Z_lt_iff _ _)) in A3. apply (proj1 (inject_Z_le_iff _ _)) in A1. lia.
Qed.
