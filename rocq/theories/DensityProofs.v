(** The number of points in the tiles of the density tiler. *)
From Verif Require Import Base BaseLemmas TileModel TileSpec TileProofs DensitySpec.
From Coq Require Import List ZifyBool Lqa Permutation Sorted.
Import ListNotations.
Set Default Goal Selector "!".
Local Open Scope nat_scope.

Definition cnt {A} (P : A -> bool) (l : list A) : nat := length (filter P l).

Lemma cnt_app {A} (P : A -> bool) a b : cnt P (a ++ b) = cnt P a + cnt P b.
Proof. unfold cnt. now rewrite filter_app, app_length. Qed.
Lemma cnt_le {A} (P : A -> bool) l : cnt P l <= length l.
Proof. unfold cnt. induction l; cbn; [lia|]. destruct (P a); cbn; lia. Qed.
Lemma cnt_all {A} (P : A -> bool) l : (forall x, In x l -> P x = true) -> cnt P l = length l.
Proof. unfold cnt. induction l as [|a l IH]; intros H; cbn; [auto|]. rewrite (H a) by now left. cbn. rewrite IH; auto. intros; apply H; now right. Qed.
Lemma cnt_none {A} (P : A -> bool) l : (forall x, In x l -> P x = false) -> cnt P l = 0.
Proof. unfold cnt. induction l as [|a l IH]; intros H; cbn; [auto|]. rewrite (H a) by now left. apply IH. intros; apply H; now right. Qed.
Lemma cnt_mono {A} (P Q : A -> bool) l : (forall x, In x l -> P x = true -> Q x = true) -> cnt P l <= cnt Q l.
Proof.
  unfold cnt. induction l as [|a l IH]; intros H; cbn; [auto|]. assert (cnt P l <= cnt Q l) as K by (apply IH; intros; apply H; [now right|auto]). unfold cnt in K.
  destruct (P a) eqn:E; [rewrite (H a (or_introl eq_refl) E); cbn; lia|]. destruct (Q a); cbn; lia.
Qed.
Lemma cnt_or {A} (P Q : A -> bool) l : cnt (fun x => P x || Q x) l <= cnt P l + cnt Q l.
Proof. unfold cnt. induction l as [|a l IH]; cbn; [auto|]. destruct (P a), (Q a); cbn; lia. Qed.
Lemma cnt_neg {A} (P : A -> bool) l : cnt P l + cnt (fun x => negb (P x)) l = length l.
Proof. unfold cnt. induction l as [|a l IH]; cbn; [auto|]. destruct (P a); cbn; lia. Qed.
Lemma cnt_map {A B} (P : B -> bool) (g : A -> B) l : cnt P (map g l) = cnt (fun x => P (g x)) l.
Proof. unfold cnt. induction l as [|a l IH]; cbn; [auto|]. destruct (P (g a)); cbn; lia. Qed.
Lemma cnt_perm {A} (P : A -> bool) l l' : Permutation l l' -> cnt P l = cnt P l'.
Proof. unfold cnt. induction 1; cbn; try (destruct (P x)); try (destruct (P y)); cbn; lia. Qed.
Lemma cnt_filter {A} (P Q : A -> bool) l : cnt P (filter Q l) = cnt (fun x => Q x && P x) l.
Proof. unfold cnt. induction l as [|a l IH]; cbn; [auto|]. destruct (Q a); cbn; [destruct (P a); cbn; lia|auto]. Qed.

(** ** Sorting *)
Lemma insertZ_perm x l : Permutation (insertZ x l) (x :: l).
Proof. induction l as [|a l IH]; cbn; [auto|]. destruct (x <=? a)%Z; [auto|]. rewrite IH. apply perm_swap. Qed.
Lemma sortZ_perm l : Permutation (sortZ l) l.
Proof. induction l as [|a l IH]; [auto|]. cbn [sortZ fold_right]. fold (sortZ l). rewrite insertZ_perm. now constructor. Qed.
Lemma insertZ_sorted x l : StronglySorted Z.le l -> StronglySorted Z.le (insertZ x l).
Proof.
  induction 1 as [|a l S IH F]; cbn [insertZ]; [repeat constructor|]. destruct (x <=? a)%Z eqn:E.
  - constructor; [now constructor|]. constructor; [lia|]. eapply Forall_impl; [|exact F]. cbn. lia.
  - constructor; [exact IH|]. apply Forall_forall. intros y I. apply insertZ_In in I as [->|I]; [lia|]. rewrite Forall_forall in F. auto.
Qed.
Lemma sortZ_sorted l : StronglySorted Z.le (sortZ l).
Proof. induction l as [|a l IH]; [constructor|]. cbn [sortZ fold_right]. fold (sortZ l). now apply insertZ_sorted. Qed.
Lemma sorted_split l k : StronglySorted Z.le l -> k < length l ->
  (forall x, In x (firstn k l) -> x <= nth k l 0)%Z /\ (forall x, In x (skipn k l) -> nth k l 0 <= x)%Z.
Proof.
  intros S. revert k. induction S as [|a l S IH F]; intros [|k] Hk; cbn [firstn skipn nth length] in *; try lia.
  - split; [intros x []|]. intros x [<-|I]; [lia|]. rewrite Forall_forall in F. auto.
  - destruct (IH k ltac:(lia)) as [A B]. split; [|auto]. intros x [<-|I]; [|auto]. rewrite Forall_forall in F. apply F, nth_In. lia.
Qed.

Lemma firstn_S_nth {A} (l : list A) k d : k < length l -> firstn (S k) l = firstn k l ++ [nth k l d].
Proof. revert k. induction l as [|a l IH]; intros [|k] H; cbn [length] in H; try lia; [reflexivity|]. cbn [firstn nth app]. f_equal. apply IH. lia. Qed.

(** ** One cut *)
Lemma cut_count l j D (a b : Z) : StronglySorted Z.le l -> 1 <= j < length l -> a = nth (j - 1) l 0%Z -> b = nth j l 0%Z ->
  cnt (fun v => v =? a)%Z l <= D ->
  j <= cnt (fun v => 2 * v <=? a + b)%Z l <= j + (D - 1).
Proof.
  intros Ss Hj Ea Eb HD. destruct (sorted_split l (j - 1) Ss ltac:(lia)) as [A1 A2]. destruct (sorted_split l j Ss ltac:(lia)) as [B1 B2]. rewrite <- Ea, <- Eb in *.
  assert (a <= b)%Z as Hab.
  { rewrite Eb. apply A2. rewrite <- (firstn_skipn (j - 1) l) at 1. rewrite app_nth2; rewrite firstn_length_le by lia; [|lia].
    apply nth_In. rewrite skipn_length. lia. }
  assert (firstn j l = firstn (j - 1) l ++ [a]) as Ef.
  { replace j with (S (j - 1)) at 1 by lia. rewrite Ea. rewrite (firstn_S_nth l (j - 1) 0%Z) by lia. reflexivity. }
  assert (forall x, In x (firstn j l) -> x <= a)%Z as A3.
  { intros x I. rewrite Ef in I. apply in_app_iff in I as [I|[<-|[]]]; [auto|lia]. }
  pose proof (firstn_skipn j l) as El. split.
  - rewrite <- El, cnt_app, (cnt_all _ (firstn j l)).
    + rewrite firstn_length_le by lia. lia.
    + intros x I. specialize (A3 x I). lia.
  - destruct (Z.eq_dec a b) as [E|E].
    + assert (1 <= cnt (fun v => v =? a)%Z l) as H1.
      { rewrite <- El, Ef, !cnt_app. unfold cnt at 2. cbn [filter]. rewrite Z.eqb_refl. cbn [length]. lia. }
      assert (cnt (fun v => 2 * v <=? a + b)%Z l <= cnt (fun v => v <? a)%Z l + cnt (fun v => v =? a)%Z l) as H2.
      { eapply Nat.le_trans; [|apply cnt_or]. apply cnt_mono. intros x _ H. lia. }
      assert (cnt (fun v => v <? a)%Z l <= j - 1) as H3.
      { rewrite <- (firstn_skipn (j - 1) l), cnt_app. rewrite (cnt_none _ (skipn (j - 1) l)).
        - pose proof (cnt_le (fun v => v <? a)%Z (firstn (j - 1) l)) as K. rewrite firstn_length_le in K by lia. lia.
        - intros x I. specialize (A2 x I). lia. }
      lia.
    + rewrite <- El, cnt_app. rewrite (cnt_none _ (skipn j l)).
      * pose proof (cnt_le (fun v => 2 * v <=? a + b)%Z (firstn j l)) as K. rewrite firstn_length_le in K by lia. lia.
      * intros x I. specialize (B2 x I). lia.
Qed.

Lemma per_line_filter D P pts : per_line D pts -> per_line D (filter P pts).
Proof.
  intros H v. destruct (H v) as [A B]. fold (cnt (fun p => fst p =? v)%Z (filter P pts)). fold (cnt (fun p => snd p =? v)%Z (filter P pts)).
  rewrite !cnt_filter. split.
  - eapply Nat.le_trans; [|exact A]. apply cnt_mono. intros x _ K. lia.
  - eapply Nat.le_trans; [|exact B]. apply cnt_mono. intros x _ K. lia.
Qed.

Lemma distinct_per_line pts : NoDup (map fst pts) -> NoDup (map snd pts) -> per_line 1 pts.
Proof.
  intros N1 N2.
  assert (forall (f : Z * Z -> Z) v, NoDup (map f pts) -> length (filter (fun p => f p =? v)%Z pts) <= 1) as U.
  { clear. intros f v. induction pts as [|p pts IH]; cbn [map filter]; intros N; [cbn; lia|]. inversion N as [|? ? A B]; subst. specialize (IH B).
    destruct (f p =? v)%Z eqn:E; [|exact IH]. cbn [length]. enough (length (filter (fun q => f q =? v)%Z pts) = 0) by lia.
    apply (cnt_none (fun q => f q =? v)%Z). intros q I. destruct (f q =? v)%Z eqn:E2; [|auto]. exfalso. apply A. apply in_map_iff. exists q. split; [lia|exact I]. }
  intros v; split; now apply U.
Qed.

Lemma split_count pts use_x m i D b cuts : per_line D pts -> 1 <= i <= m - 1 ->
  get_splits (sortZ (map (axis use_x) pts)) m (side use_x b) = Ok cuts ->
  let n := length pts / m in
  i * n <= cnt (fun p => Qle_bool (inject_Z (axis use_x p)) (nth i cuts 0%Q)) pts <= i * n + (D - 1).
Proof.
  intros HD Hi E n. unfold get_splits in E. rewrite sortZ_length, map_length in E. fold n in E.
  destruct (Nat.eqb_spec n 0) as [|Hn]; [discriminate|]. injection E as <-. destruct i as [|i]; [lia|]. cbn [nth].
  rewrite app_nth1 by (rewrite map_length, seq_length; lia). rewrite (map_nth' _ _ _ O) by (rewrite seq_length; lia). rewrite seq_nth by lia.
  rewrite Nat.add_0_l. set (l := sortZ (map (axis use_x) pts)). 
  assert (length l = length pts) as Ll by (unfold l; now rewrite sortZ_length, map_length).
  destruct (div_index (length pts) m i Hn ltac:(lia)) as [D1 D2]. fold n in D1, D2.
  set (j := S i * n) in *. assert (i * n + n - 1 = j - 1) as Ej by (unfold j; cbn; lia). rewrite Ej.
  set (a := nth (j - 1) l 0%Z). set (c := nth j l 0%Z).
  enough (j <= cnt (fun p => Qle_bool (inject_Z (axis use_x p)) (inject_Z (a + c) / 2)) pts <= j + (D - 1)) as K by exact K.
  assert (cnt (fun p => Qle_bool (inject_Z (axis use_x p)) (inject_Z (a + c) / 2)) pts = cnt (fun v => 2 * v <=? a + c)%Z l) as ->.
  { rewrite (cnt_perm _ _ _ (sortZ_perm (map (axis use_x) pts)) : cnt _ l = _), cnt_map. unfold cnt. f_equal. apply filter_ext. intros p.
    apply Bool.eq_iff_eq_true. rewrite Qle_bool_iff, Z.leb_le. clearbody a c. generalize (axis use_x p). intros v. unfold Qle, Qdiv, Qmult, Qinv, inject_Z. cbn -[Z.mul]. lia. }
  apply (cut_count l j D a c); auto.
  - apply sortZ_sorted.
  - rewrite Ll. unfold j in *. cbn in *. lia.
  - unfold l. rewrite (cnt_perm _ _ _ (sortZ_perm _)), cnt_map. destruct (HD a) as [A B]. destruct use_x; [exact A|exact B].
Qed.

(** ** Losses *)
Lemma ceil_div_spec a k : 0 < k -> a <= k * ceil_div a k.
Proof. intros H. unfold ceil_div. pose proof (Nat.div_mod (a + k - 1) k ltac:(lia)) as E. pose proof (Nat.mod_upper_bound (a + k - 1) k ltac:(lia)) as U.
  revert E U. generalize ((a + k - 1) / k) ((a + k - 1) mod k). intros q r E U. lia. Qed.
Lemma tie_loss_S D m : 1 <= m -> tie_loss D (S m) = tie_loss D m + ceil_div (D - 1) m.
Proof.
  intros H. unfold tie_loss. replace (S m - 1) with (S (m - 1)) by lia. rewrite seq_S, map_app, list_sum_app. cbn [map list_sum fold_right]. replace (1 + (m - 1)) with m by lia. lia.
Qed.
Lemma tie_loss_mono D m m' : 1 <= m <= m' -> tie_loss D m <= tie_loss D m'.
Proof. intros [H L]. induction L as [|m' L IH]; [lia|]. rewrite tie_loss_S by lia. lia. Qed.
Lemma tie_loss_part D m k : 1 <= k < m -> tie_loss D k + ceil_div (D - 1) k <= tie_loss D m.
Proof. intros H. rewrite <- tie_loss_S by lia. apply tie_loss_mono. lia. Qed.
Lemma tie_loss_one m : tie_loss 1 m = 0.
Proof.
  unfold tie_loss. replace (1 - 1) with 0 by lia. generalize (m - 1) as n. intros n.
  assert (forall s, 1 <= s -> list_sum (map (ceil_div 0) (seq s n)) = 0) as K.
  { induction n as [|n IH]; intros s Hs; cbn [seq map list_sum fold_right]; [auto|]. fold (list_sum (map (ceil_div 0) (seq (S s) n))). rewrite IH by lia. unfold ceil_div. rewrite Nat.div_small by lia. lia. }
  apply K. lia.
Qed.

(** The share of a part: [i] of [m] pieces with at least [c] points. *)
Lemma share_lo N m i c : 1 <= i -> i * (N / m) <= c -> N / m <= c / i.
Proof. intros Hi H. apply Nat.div_le_lower_bound; lia. Qed.
Lemma share_hi N m i c D : 1 <= i < m -> c <= i * (N / m) + (D - 1) -> N / m <= (N - c) / (m - i) + ceil_div (D - 1) (m - i).
Proof.
  intros Hi H. set (n := N / m) in *. set (q := ceil_div (D - 1) (m - i)).
  destruct (Nat.le_gt_cases n q) as [L|L]; [lia|]. enough (n - q <= (N - c) / (m - i)) by lia.
  apply Nat.div_le_lower_bound; [lia|]. pose proof (ceil_div_spec (D - 1) (m - i) ltac:(lia)) as C. fold q in C.
  pose proof (Nat.mul_div_le N m ltac:(lia)) as M. fold n in M.
  assert ((m - i) * (n - q) + (m - i) * q = (m - i) * n) as X by (rewrite <- Nat.mul_add_distr_l; f_equal; lia).
  assert ((m - i) * n + i * n = m * n) as Y by (rewrite <- Nat.mul_add_distr_r; f_equal; lia). lia.
Qed.

(** ** All cuts *)
Definition qin (b : qbounds) (p : Z * Z) : Prop :=
  (fst (fst b) <= inject_Z (fst p) <= snd (fst b))%Q /\ (fst (snd b) <= inject_Z (snd p) <= snd (snd b))%Q.

Theorem split_balanced pick D fuel : picks_in_range pick -> forall pts b m r,
  1 <= m -> per_line D pts -> qpoints b pts -> split_rectangle pick fuel pts b m = Ok r ->
  forall a, In a r -> exists P, length pts / m <= cnt P pts + tie_loss D m /\ forall p, In p pts -> P p = true -> qin a p.
Proof.
  intros Hpick. induction fuel as [|fuel IH]; intros pts b m r Hm HD Hp E a Ia.
  - destruct (Nat.eq_dec m 1) as [->|N]; [|apply Nat.eqb_neq in N; cbn in E; rewrite N in E; discriminate].
    cbn in E. injection E as <-. destruct Ia as [<-|[]]. exists (fun _ => true). rewrite Nat.div_1_r, cnt_all by auto. split; [lia|]. intros p I _. exact (Hp p I).
  - destruct (Nat.eq_dec m 1) as [->|N].
    { cbn in E. injection E as <-. destruct Ia as [<-|[]]. exists (fun _ => true). rewrite Nat.div_1_r, cnt_all by auto. split; [lia|]. intros p I _. exact (Hp p I). }
    pose proof (split_rectangle_S _ _ _ _ _ _ N E) as (cuts & lo & hi & Ec & E1 & E2 & ->).
    pose proof (Hpick pts b m ltac:(lia)) as Hi.
    set (ux := fst (pick pts b m)) in *. set (i := snd (pick pts b m)) in *.
    pose proof (split_count pts ux m i D b cuts HD Hi Ec) as Hc. cbv zeta in Hc.
    assert (fst (side ux b) <= nth i cuts 0 <= snd (side ux b))%Q as Hcut.
    { eapply get_splits_cut; [exact Ec|exact Hi|]. intros v Hv. eapply qpoints_side; eauto. }
    set (cut := nth i cuts 0%Q) in *. set (mask := fun p : Z * Z => Qle_bool (inject_Z (axis ux p)) cut) in *.
    assert (qpoints (cut_lo ux b cut) (filter mask pts)) as QL.
    { intros p K. apply filter_In in K as [K1 K2]. apply Qle_bool_iff in K2.
      specialize (Hp p K1). unfold cut_lo, axis in *. destruct ux; unfold side in *; cbn [fst snd] in *; repeat split; lra. }
    assert (qpoints (cut_hi ux b cut) (filter (fun p => negb (mask p)) pts)) as QH.
    { intros p K. apply filter_In in K as [K1 K2].
      assert (cut < inject_Z (axis ux p))%Q as K3.
      { destruct (Qlt_le_dec cut (inject_Z (axis ux p))) as [A|A]; [exact A|].
        apply Qle_bool_iff in A. unfold mask in K2. rewrite A in K2. discriminate. }
      specialize (Hp p K1). unfold cut_hi, axis in *. destruct ux; unfold side in *; cbn [fst snd] in *; repeat split; lra. }
    assert (1 <= i /\ 1 <= m - i) as [Hi1 Hi2] by lia.
    apply in_app_iff in Ia as [Ia|Ia].
    + destruct (IH _ _ _ _ Hi1 (per_line_filter _ mask _ HD) QL E1 a Ia) as (P & HP & Q).
      exists (fun p => mask p && P p). split.
      * rewrite <- cnt_filter. pose proof (share_lo (length pts) m i _ ltac:(lia) (proj1 Hc)) as S. pose proof (tie_loss_mono D i m ltac:(lia)).
        change (length (filter mask pts)) with (cnt mask pts) in HP. change (cnt (fun p => Qle_bool (inject_Z (axis ux p)) cut) pts) with (cnt mask pts) in S. lia.
      * intros p I K. apply andb_true_iff in K as [K1 K2]. apply Q; [|exact K2]. apply filter_In. auto.
    + destruct (IH _ _ _ _ Hi2 (per_line_filter _ (fun p => negb (mask p)) _ HD) QH E2 a Ia) as (P & HP & Q).
      exists (fun p => negb (mask p) && P p). split.
      * rewrite <- cnt_filter. pose proof (share_hi (length pts) m i _ D ltac:(lia) (proj2 Hc)) as S. pose proof (tie_loss_part D m (m - i) ltac:(lia)).
        pose proof (cnt_neg mask pts) as Cn. unfold cnt at 2 in Cn. replace (length pts - cnt mask pts) with (length (filter (fun x => negb (mask x)) pts)) in S by lia.
        lia.
      * intros p I K. apply andb_true_iff in K as [K1 K2]. apply Q; [|exact K2]. apply filter_In. auto.
Qed.

Theorem split_total pick D fuel : picks_in_range pick -> forall pts b m,
  1 <= m <= fuel -> per_line D pts -> tie_loss D m < length pts / m -> exists r, split_rectangle pick fuel pts b m = Ok r.
Proof.
  intros Hpick. induction fuel as [|fuel IH]; intros pts b m Hm HD HN; [lia|].
  cbn [split_rectangle]. destruct (Nat.eqb_spec m 1) as [->|N]; [eauto|].
  assert (pts <> []) as Np by (intros ->; cbn in HN; rewrite Nat.div_small in HN; lia).
  assert (forall ux, exists cuts, get_splits (sortZ (map (axis ux) pts)) m (side ux b) = Ok cuts) as G.
  { intros ux. unfold get_splits. rewrite sortZ_length, map_length. destruct (Nat.eqb_spec (length pts / m) 0); [lia|eauto]. }
  pose proof (Hpick pts b m ltac:(lia)) as Hi.
  destruct (G true) as (cx & Ex), (G false) as (cy & Ey).
  pose proof (split_count pts true m (snd (pick pts b m)) D b cx HD Hi Ex) as Cx. pose proof (split_count pts false m (snd (pick pts b m)) D b cy HD Hi Ey) as Cy.
  cbn [axis side] in Ex, Ey, Cx, Cy.
  destruct pts as [|p0 pts0]; [easy|]. set (pts := p0 :: pts0) in *.
  change (get_splits (sortZ (map fst pts)) m (fst b) = Ok cx) in Ex. change (get_splits (sortZ (map snd pts)) m (snd b) = Ok cy) in Ey.
  rewrite Ex, Ey. cbn [bind].
  destruct (pick pts b m) as [ux i]. cbn [snd] in *. cbv zeta in Cx, Cy.
  assert (forall mask b0 b1, i * (length pts / m) <= cnt mask pts <= i * (length pts / m) + (D - 1) ->
    exists lo hi, split_rectangle pick fuel (filter mask pts) b0 i = Ok lo /\
      split_rectangle pick fuel (filter (fun p => negb (mask p)) pts) b1 (m - i) = Ok hi) as K.
  { intros mask b0 b1 Hc.
    destruct (IH (filter mask pts) b0 i ltac:(lia) (per_line_filter _ _ _ HD)) as (lo & E1).
    { pose proof (share_lo (length pts) m i _ ltac:(lia) (proj1 Hc)) as S. pose proof (tie_loss_mono D i m ltac:(lia)). unfold cnt in S. lia. }
    destruct (IH (filter (fun p => negb (mask p)) pts) b1 (m - i) ltac:(lia) (per_line_filter _ _ _ HD)) as (hi & E2).
    { pose proof (share_hi (length pts) m i _ D ltac:(lia) (proj2 Hc)) as S. pose proof (tie_loss_part D m (m - i) ltac:(lia)).
      pose proof (cnt_neg mask pts) as Cn. unfold cnt at 2 in Cn. replace (length pts - cnt mask pts) with (length (filter (fun x => negb (mask x)) pts)) in S by lia. lia. }
    eauto. }
  destruct ux.
  - match goal with |- context [split_rectangle pick fuel (filter ?mk pts) ?b0 i] => match goal with |- context [split_rectangle pick fuel _ ?b1 (m - i)] => destruct (K mk b0 b1 Cx) as (lo & hi & -> & E2) end end.
    cbn [bind]. rewrite E2. cbn [bind]. eauto.
  - match goal with |- context [split_rectangle pick fuel (filter ?mk pts) ?b0 i] => match goal with |- context [split_rectangle pick fuel _ ?b1 (m - i)] => destruct (K mk b0 b1 Cy) as (lo & hi & -> & E2) end end.
    cbn [bind]. rewrite E2. cbn [bind]. eauto.
Qed.

(** ** The tiles *)
Lemma every_nth_cnt P k c pts : cnt P (every_nth k c pts) <= cnt P pts.
Proof.
  revert c. induction pts as [|p pts IH]; intros c; cbn [every_nth]; [auto|]. unfold cnt in *. cbn [filter].
  destruct c as [|c]; cbn [filter]; destruct (P p); cbn [length]; [specialize (IH (k - 1))|specialize (IH (k - 1))|specialize (IH c)|specialize (IH c)]; lia.
Qed.
Lemma every_nth_per_line D k c pts : per_line D pts -> per_line D (every_nth k c pts).
Proof.
  intros H v. destruct (H v) as [A B]. split; (eapply Nat.le_trans; [apply every_nth_cnt|]); [exact A|exact B].
Qed.
Lemma every_nth_length k c pts : 1 <= k -> c < k -> length (every_nth k c pts) = (length pts + (k - 1 - c)) / k.
Proof.
  intros Hk. revert c. induction pts as [|p pts IH]; intros c Hc; cbn [every_nth length].
  - rewrite Nat.div_small; lia.
  - destruct c as [|c].
    + cbn [length]. rewrite IH by lia. replace (k - 1 - (k - 1)) with 0 by lia. replace (S (length pts) + (k - 1 - 0)) with (length pts + 0 + 1 * k) by lia.
      rewrite Nat.div_add by lia. lia.
    + rewrite IH by lia. f_equal. lia.
Qed.

Lemma in_box_has b p : in_box b p = true <-> has_pixel b (fst p) (snd p).
Proof. unfold in_box, has_pixel. lia. Qed.

(** Points of a closed rational box that truncation gives away lie on two lines. *)
Lemma box_keeps sh a p : qwf a -> qsub a ((0%Q, inject_Z (fst sh)), (0%Q, inject_Z (snd sh))) -> qin a p ->
  in_box (box_of_bounds sh a) p = true \/ fst p = Qfloor (snd (fst a)) \/ snd p = Qfloor (snd (snd a)).
Proof.
  intros W Sb [[A1 A2] [B1 B2]]. rewrite in_box_has. rewrite (proj1 (box_of_bounds_has sh a (fst p) (snd p) W Sb)). unfold qhas.
  apply Qfloor_resp_le in A1, A2, B1, B2. rewrite Qfloor_Z in A1, A2, B1, B2. lia.
Qed.

Theorem density_lower pick D pts sh mt t b : picks_in_range pick -> (0 < fst sh)%Z -> (0 < snd sh)%Z -> points_in sh pts -> per_line D pts ->
  create_tiles_density pick pts sh mt = Ok t -> In b (tiles t) ->
  length pts / ntiles t <= points_of b pts + tie_loss D (ntiles t) + 2 * D.
Proof.
  intros Hpick H0 H1 Hp HD E Ib.
  pose proof (density_sound _ _ _ _ _ Hpick H0 H1 Hp E) as (_ & _ & _ & EN & Hmt).
  unfold create_tiles_density in E. destruct ((fst sh <=? 0) && (snd sh <=? 0))%Z; [discriminate|]. destruct (mt <=? 0)%Z eqn:Em; [discriminate|].
  assert (1 <= Z.sqrt mt)%Z as Hk by (apply Z.sqrt_le_square; lia). set (k := Z.sqrt mt) in *.
  assert (ntiles t = Z.to_nat (k * k)) as EN' by lia. rewrite EN' in *. clear EN EN'.
  destruct (Nat.eqb_spec (Z.to_nat (k * k)) 1) as [E1|N].
  - injection E as <-. cbn in Ib. destruct Ib as [<-|[]]. rewrite E1, Nat.div_1_r. unfold points_of. fold (cnt (in_box (BBox 0 0 (fst sh) (snd sh))) pts).
    rewrite cnt_all; [lia|]. intros p I. apply in_box_has. apply Hp in I. unfold in_image, has_pixel in *. cbn [xmin xmax ymin ymax]. lia.
  - set (bd := ((0%Q, inject_Z (fst sh)), (0%Q, inject_Z (snd sh))) : qbounds) in *. set (m := Z.to_nat (k * k)) in *.
    destruct (split_rectangle pick m pts bd m) as [s|] eqn:Es; [|discriminate]. cbn [bind] in E. injection E as <-. cbn [tiles] in Ib.
    apply in_map_iff in Ib as (a & <- & Ia).
    assert (qpoints bd pts) as Qp.
    { intros p K. specialize (Hp p K) as [A B]. unfold bd. cbn [fst snd]. split; split; try (apply (inject_le 0); lia); apply inject_le; lia. }
    assert (1 <= m) as Hm by (unfold m; nia).
    destruct (split_balanced pick D m Hpick pts bd m s Hm HD Qp Es a Ia) as (P & HP & HQ).
    apply split_rectangle_sound in Es as (L & _ & F); [|assumption|assumption| |assumption].
    2:{ unfold qwf, bd. cbn. split; apply (inject_le 0); lia. }
    rewrite Forall_forall in F. destruct (F a Ia) as [Sb W].
    set (u := Qfloor (snd (fst a))). set (v := Qfloor (snd (snd a))). destruct (HD u) as [Du _]. destruct (HD v) as [_ Dv].
    assert (cnt P pts <= cnt (fun p => in_box (box_of_bounds sh a) p || ((fst p =? u) || (snd p =? v)))%Z pts) as C.
    { apply cnt_mono. intros p I K. destruct (box_keeps sh a p W Sb (HQ p I K)) as [-> |[X|X]]; [auto|fold u in X|fold v in X]; lia. }
    rewrite (cnt_or (in_box (box_of_bounds sh a))) in C. pose proof (cnt_or (fun p : Z * Z => fst p =? u)%Z (fun p => snd p =? v)%Z pts) as C2.
    unfold points_of. unfold cnt in *. lia.
Qed.

(** Every point lies in exactly one tile. *)
Lemma list_sum_map_add {A} (f g : A -> nat) l : list_sum (map (fun x => f x + g x) l) = list_sum (map f l) + list_sum (map g l).
Proof. unfold list_sum. induction l; cbn [map fold_right]; lia. Qed.
Lemma unique_index_cnt {A} (P : A -> bool) l d : (exists! i, i < length l /\ P (nth i l d) = true) -> cnt P l = 1.
Proof.
  induction l as [|a l IH]; intros (i & [Hi HP] & U); [cbn in Hi; lia|]. unfold cnt in *. cbn [filter]. destruct i as [|i].
  - cbn [nth] in HP. rewrite HP. cbn [length]. f_equal. fold (cnt P l). apply cnt_none. intros x I. destruct (P x) eqn:E; [|auto].
    apply (In_nth _ _ d) in I as (j & Hj & <-). assert (0 = S j) by (apply U; split; [cbn; lia|exact E]). lia.
  - destruct (P a) eqn:E; [assert (S i = 0) by (apply U; split; [cbn; lia|exact E]); lia|]. apply IH. exists i. cbn [length nth] in *. split; [split; [lia|exact HP]|].
    intros j [Hj K]. assert (S i = S j) by (apply U; split; [lia|exact K]). lia.
Qed.
Lemma points_sum ts pts : (forall p, In p pts -> cnt (fun b => in_box b p) ts = 1) -> list_sum (map (fun b => points_of b pts) ts) = length pts.
Proof.
  induction pts as [|p pts IH]; intros H.
  - clear H. induction ts; cbn; auto.
  - cbn [length]. rewrite <- IH by (intros; apply H; now right). specialize (H p (or_introl eq_refl)).
    transitivity (list_sum (map (fun b => (if in_box b p then 1 else 0) + points_of b pts) ts)).
    + f_equal. apply map_ext. intros b. unfold points_of. cbn [filter]. destruct (in_box b p); reflexivity.
    + rewrite list_sum_map_add. enough (list_sum (map (fun b => if in_box b p then 1 else 0) ts) = 1) by lia.
      transitivity (cnt (fun b => in_box b p) ts); [|exact H]. clear. unfold cnt, list_sum. induction ts as [|b ts IH]; cbn [map fold_right filter]; [auto|]. destruct (in_box b p); cbn [length]; lia.
Qed.
Theorem partition_sum t pts : partitions t -> points_in (shape t) pts -> list_sum (map (fun b => points_of b pts) (tiles t)) = length pts.
Proof.
  intros P Hp. apply points_sum. intros p I. apply (unique_index_cnt _ _ (BBox 0 0 0 0)). destruct (P _ _ (Hp p I)) as (i & [Hi HP] & U).
  exists i. split; [split; [exact Hi|now apply in_box_has]|]. intros j [Hj K]. apply U. split; [exact Hj|now apply in_box_has].
Qed.
Lemma list_sum_ge {A} (f : A -> nat) l c : (forall x, In x l -> c <= f x) -> length l * c <= list_sum (map f l).
Proof. unfold list_sum. induction l as [|a l IH]; intros H; cbn [length map fold_right]; [lia|]. specialize (IH ltac:(intros; apply H; now right)). specialize (H a (or_introl eq_refl)). lia. Qed.
Lemma list_sum_one {A} (f : A -> nat) l c x : In x l -> (forall x, In x l -> c <= f x) -> f x + (length l - 1) * c <= list_sum (map f l).
Proof.
  intros I H. apply in_split in I as (l1 & l2 & ->). rewrite map_app, list_sum_app, app_length. cbn [map list_sum fold_right length].
  pose proof (list_sum_ge f l1 c ltac:(intros; apply H; apply in_app_iff; auto)). pose proof (list_sum_ge f l2 c ltac:(intros; apply H; apply in_app_iff; cbn; auto)).
  change (fold_right Nat.add 0 (map f l2)) with (list_sum (map f l2)). replace (length l1 + S (length l2) - 1) with (length l1 + length l2) by lia. lia.
Qed.

Theorem density_upper pick D pts sh mt t b : picks_in_range pick -> (0 < fst sh)%Z -> (0 < snd sh)%Z -> points_in sh pts -> per_line D pts ->
  create_tiles_density pick pts sh mt = Ok t -> In b (tiles t) ->
  points_of b pts + (ntiles t - 1) * (length pts / ntiles t - tie_loss D (ntiles t) - 2 * D) <= length pts.
Proof.
  intros Hpick H0 H1 Hp HD E Ib. pose proof (density_sound _ _ _ _ _ Hpick H0 H1 Hp E) as (Es & P & _).
  rewrite <- (partition_sum t pts P) at 2 by now rewrite Es.
  apply (list_sum_one (fun b => points_of b pts)); [exact Ib|]. intros x Ix. pose proof (density_lower pick D pts sh mt t x Hpick H0 H1 Hp HD E Ix). lia.
Qed.

Theorem density_total pick D pts sh mt : picks_in_range pick -> (0 < fst sh)%Z -> (1 <= mt)%Z -> per_line D pts ->
  let m := Z.to_nat (Z.sqrt mt * Z.sqrt mt) in
  tie_loss D m < length pts / m -> exists t, create_tiles_density pick pts sh mt = Ok t.
Proof.
  intros Hpick H0 Hmt HD m HN. unfold create_tiles_density. destruct ((fst sh <=? 0) && (snd sh <=? 0))%Z eqn:E0; [lia|]. destruct (mt <=? 0)%Z eqn:Em; [lia|].
  assert (1 <= Z.sqrt mt)%Z as Hk by (apply Z.sqrt_le_square; lia). fold m. assert (1 <= m) as Hm by (unfold m; nia).
  destruct (Nat.eqb m 1); [eauto|].
  match goal with |- context [split_rectangle pick m pts ?b m] => destruct (split_total pick D m Hpick pts b m ltac:(lia) HD HN) as (r & ->) end.
  cbn [bind]. eauto.
Qed.
