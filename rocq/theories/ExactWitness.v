(** Solvers that meet the contracts of ExactSpec.v, for the examples. *)
From Verif Require Import Base BaseLemmas PoolProofs GraphModel GraphSpec TileModel SlcModel BulkModel BulkSpec BulkProofs ExactSpec.
From Coq Require Import List ZifyBool Lqa.
Import ListNotations.
Set Default Goal Selector "!".
Local Open Scope nat_scope.

(** Components: every edge merges two labels; then the labels are ranked. *)
Definition merge_labels (l : list nat) (p : nat * nat) : list nat :=
  map (fun x => if x =? nth (snd p) l 0 then nth (fst p) l 0 else x) l.
Definition raw_labels (n : nat) (edges : list (nat * nat)) : list nat := fold_left merge_labels edges (seq 0 n).
Definition used (n : nat) (labels : list nat) : list nat := filter (fun x => existsb (Nat.eqb x) labels) (seq 0 n).
Definition labels_of (n : nat) (edges : list (nat * nat)) : list nat :=
  let l := raw_labels n edges in map (fun x => length (filter (fun y => y <? x) (used n l))) l.

(** Real offsets: every row of the matrix moves one of two components. *)
Fixpoint first_at (v : Q) (row : list Q) : nat :=
  match row with [] => 0 | x :: r => if Qeq_bool x v then 0 else S (first_at v r) end.
Definition row_pair (row : list Q) : nat * nat := (first_at (-1)%Q row, first_at 1%Q row).
Definition move (st : list nat * list Q) (pd : (nat * nat) * Q) : list nat * list Q :=
  let '(l, x) := st in let '((a, b), d) := pd in
  (merge_labels l (a, b),
   if nth b l 0 =? nth a l 0 then x
   else map (fun lv => if fst lv =? nth b l 0 then (snd lv + (nth a x 0 + d - nth b x 0))%Q else snd lv) (combine l x)).
Definition exact_lsq (a : list (list Q)) (b : list Q) : list Q :=
  let n := length (nth 0 a []) in
  snd (fold_left move (combine (map row_pair a) b) (seq 0 n, repeat 0%Q n)).

(** Integer offsets that explain all measurements, if following the equations
    from tile to tile finds some. *)
Definition tile_eq (e : list (nat * Z) * Z) : option (nat * nat * Z) :=
  match fst e with [(t2, _); (t1, _); _; _] => Some (t1, t2, snd e) | _ => None end.
Definition step_eqs (p : mip) (x : list Z) : list Z :=
  fold_left (fun x e => match tile_eq e with Some (t1, t2, d) => upd x t2 (nth t1 x 0 + d)%Z | None => x end) (mip_eqs p) x.
Definition guess (p : mip) : list Z :=
  let nv := length (mip_bounds p) in
  let x := Nat.iter 4 (step_eqs p) (repeat 0%Z nv) in
  let links := length (filter (fun e => match tile_eq e with Some _ => true | None => false end) (mip_eqs p)) in
  let npts := nv - 2 * links in
  let pin := match rev (mip_eqs p) with ([(v, _)], _) :: _ => v | _ => 0 end in
  map (fun v => (v - nth pin x 0)%Z) (firstn npts x) ++ repeat 0%Z (2 * links).
Definition feasible_b (p : mip) (x : list Z) : bool :=
  (length x =? length (mip_bounds p)) &&
  forallb (fun i => (fst (nth i (mip_bounds p) (0, 0)) <=? nth i x 0) && (nth i x 0 <=? snd (nth i (mip_bounds p) (0, 0))))%Z (seq 0 (length x)) &&
  forallb (fun e => (lin_val x (fst e) =? snd e)%Z) (mip_eqs p).
Definition exact_mip (p : mip) : option (list Z) :=
  let x := guess p in
  if feasible_b p x && (lin_val x (mip_obj p) =? 0)%Z &&
     forallb (fun t => (0 <=? snd t)%Z && (0 <=? fst (nth (fst t) (mip_bounds p) (0, 0)))%Z) (mip_obj p)
  then Some x else None.

(** ** Components *)
Lemma reach_sym l u v : reach l u v -> reach l v u.
Proof.
  assert (forall u v w, reach l u v -> (In (v, w) l \/ In (w, v) l) -> reach l u w) as St by (intros; eapply reach_step; eauto).
  assert (forall u v w, (In (u, v) l \/ In (v, u) l) -> reach l v w -> reach l u w) as Hd.
  { intros a b c E R. induction R as [|x y R IH E']; [apply (St a a); [constructor|exact E]|]. eapply St; eauto. }
  intros R. induction R as [|x y R IH E]; [constructor|]. apply (Hd _ x); [tauto|exact IH].
Qed.
Lemma reach_trans l u v w : reach l u v -> reach l v w -> reach l u w.
Proof. intros R R'. induction R' as [|x y R' IH E]; [exact R|]. eapply reach_step; eauto. Qed.
Lemma reach_incl l l' u v : incl l l' -> reach l u v -> reach l' u v.
Proof. intros I R. induction R as [|x y R IH E]; [constructor|]. eapply reach_step; [exact IH|]. destruct E; [left|right]; auto. Qed.

Definition labelled (n : nat) (done : list (nat * nat)) (l : list nat) : Prop :=
  length l = n /\ (forall x, In x l -> x < n) /\ forall u v, u < n -> v < n -> nth u l 0 = nth v l 0 <-> reach done u v.

Lemma merge_nth l p u : u < length l -> nth u (merge_labels l p) 0 = if nth u l 0 =? nth (snd p) l 0 then nth (fst p) l 0 else nth u l 0.
Proof. intros B. unfold merge_labels. now rewrite (map_nth' _ _ _ 0) by auto. Qed.

Lemma merge_labelled n done l a b : labelled n done l -> a < n -> b < n -> labelled n (done ++ [(a, b)]) (merge_labels l (a, b)).
Proof.
  intros (L & Bd & E) Ba Bb. split; [unfold merge_labels; now rewrite map_length|]. split.
  { unfold merge_labels. intros x I. apply in_map_iff in I as (y & <- & I). destruct (_ =? _); [apply Bd, nth_In; cbn; lia|now apply Bd]. }
  intros u v Bu Bv. rewrite !merge_nth by lia. cbn [fst snd].
  assert (forall x y, reach done x y -> reach (done ++ [(a, b)]) x y) as Mono by (intros x y; apply reach_incl; intros z Iz; apply in_or_app; auto).
  assert (reach (done ++ [(a, b)]) a b) as Rab by (eapply reach_step; [constructor|left; apply in_or_app; right; now left]).
  assert (reach (done ++ [(a, b)]) u v <-> reach done u v \/ (reach done u a /\ reach done b v) \/ (reach done u b /\ reach done a v)) as Rs.
  { split.
    - intros R. clear Bv. induction R as [|x y R IH Exy]; [left; constructor|].
      assert ((In (x, y) done \/ In (y, x) done) \/ (x = a /\ y = b) \/ (x = b /\ y = a)) as [Q1|[[-> ->]|[-> ->]]].
      { destruct Exy as [I|I]; apply in_app_or in I as [I|[I|[]]]; [auto|injection I as <- <-; auto|auto|injection I as <- <-; auto]. }
      + destruct IH as [IH|[[I1 I2]|[I1 I2]]]; [left|right; left; split; [auto|]|right; right; split; [auto|]]; eapply reach_step; eauto.
      + destruct IH as [IH|[[I1 I2]|[I1 I2]]]; [right; left; split; [auto|constructor]|right; left; split; [auto|constructor]|left; exact I1].
      + destruct IH as [IH|[[I1 I2]|[I1 I2]]]; [right; right; split; [auto|constructor]|left; exact I1|right; right; split; [auto|constructor]].
    - intros [R|[[R1 R2]|[R1 R2]]]; [auto| |].
      + eapply reach_trans; [apply Mono, R1|]. eapply reach_trans; [exact Rab|auto].
      + eapply reach_trans; [apply Mono, R1|]. eapply reach_trans; [apply reach_sym, Rab|auto]. }
  rewrite Rs. rewrite <- !E by auto.
  destruct (Nat.eqb_spec (nth u l 0) (nth b l 0)), (Nat.eqb_spec (nth v l 0) (nth b l 0)); lia.
Qed.

Lemma start_labelled n : labelled n [] (seq 0 n).
Proof.
  split; [apply seq_length|]. split; [intros x I; apply in_seq in I; lia|]. intros u v Bu Bv. rewrite !seq_nth by auto. split; [intros E; assert (u = v) as -> by lia; constructor|].
  intros R. destruct R as [|x y R [[]|[]]]; lia.
Qed.

Lemma raw_labelled n edges : (forall p, In p edges -> fst p < n /\ snd p < n) -> labelled n edges (raw_labels n edges).
Proof.
  unfold raw_labels. assert (forall es done l, labelled n done l -> (forall p, In p es -> fst p < n /\ snd p < n) -> labelled n (done ++ es) (fold_left merge_labels es l)) as K.
  { induction es as [|[a b] es IH]; intros done l Hl Hb; cbn [fold_left]; [now rewrite app_nil_r|].
    replace (done ++ (a, b) :: es) with ((done ++ [(a, b)]) ++ es) by (rewrite <- app_assoc; reflexivity).
    destruct (Hb (a, b) (or_introl eq_refl)). apply IH; [now apply merge_labelled|]. intros p I. apply Hb. now right. }
  intros Hb. apply (K edges [] (seq 0 n)); [apply start_labelled|exact Hb].
Qed.

Lemma rank_below S c : Sorting.Sorted.StronglySorted lt S -> c < length S -> length (filter (fun y => y <? nth c S 0) S) = c.
Proof.
  intros H. revert c. induction H as [|x S H IH F]; intros c B; [cbn in B; lia|]. rewrite Forall_forall in F. destruct c as [|c]; cbn [nth filter].
  - rewrite Nat.ltb_irrefl. assert (filter (fun y => y <? x) S = []) as ->; [|reflexivity]. clear IH B H. induction S as [|y S IS]; [reflexivity|]. cbn [filter].
    destruct (Nat.ltb_spec y x) as [L|L]; [specialize (F y (or_introl eq_refl)); lia|]. apply IS. intros z I. apply F. now right.
  - cbn in B. destruct (Nat.ltb_spec x (nth c S 0)) as [L|L]; [cbn [length]; f_equal; apply IH; lia|]. assert (In (nth c S 0) S) as I by (apply nth_In; cbn in B; lia). specialize (F _ I). lia.
Qed.

Lemma used_sorted n l : Sorting.Sorted.StronglySorted lt (used n l).
Proof.
  unfold used. generalize 0. induction n as [|n IH]; intros s; cbn [seq filter]; [constructor|].
  destruct (existsb _ _); [|apply IH]. constructor; [apply IH|]. apply Forall_forall. intros y I. apply filter_In in I as [I _]. apply in_seq in I. lia.
Qed.

Lemma components_witness : components_ok labels_of.
Proof.
  assert (forall n l, length (labels_of n l) = n) as Len.
  { intros n l. unfold labels_of. rewrite map_length. unfold raw_labels.
    assert (forall es l0, length (fold_left merge_labels es l0) = length l0) as K by (induction es as [|p es IH]; intros l0; cbn [fold_left]; [reflexivity|]; rewrite IH; unfold merge_labels; now rewrite map_length).
    rewrite K. apply seq_length. }
  split; [exact Len|]. intros n l Pn Hb. destruct (raw_labelled n l Hb) as (L & Bd & E). set (r := raw_labels n l) in *. set (S := used n r).
  assert (forall x, In x S <-> In x r) as Us.
  { intros x. unfold S, used. rewrite filter_In, existsb_exists, in_seq. split.
    - intros (_ & y & I & Ey). apply Nat.eqb_eq in Ey as <-. exact I.
    - intros I. split; [specialize (Bd x I); lia|]. exists x. split; [exact I|apply Nat.eqb_refl]. }
  assert (forall x, In x r -> exists c, c < length S /\ nth c S 0 = x /\ length (filter (fun y => y <? x) S) = c) as Rk.
  { intros x I. apply Us, (In_nth _ _ 0) in I as (c & Bc & Ec). exists c. split; [exact Bc|]. split; [exact Ec|]. rewrite <- Ec. apply rank_below; [apply used_sorted|exact Bc]. }
  assert (labels_of n l = map (fun x => length (filter (fun y => y <? x) S)) r) as El by reflexivity.
  split.
  - intros c Hc. assert (c < length S) as Bc.
    { destruct r as [|x0 r0] eqn:Er0; [cbn in L; lia|]. rewrite <- Er0 in *.
      assert (list_max (labels_of n l) < length S) as Lm; [|lia]. apply list_max_lt.
      - rewrite El, Er0. discriminate.
      - apply Forall_forall. intros y I. rewrite El in I. apply in_map_iff in I as (x & <- & I). destruct (Rk x I) as (c' & Bc' & _ & ->). exact Bc'. }
    rewrite El. apply in_map_iff. exists (nth c S 0). split; [apply rank_below; [apply used_sorted|exact Bc]|]. apply Us, nth_In, Bc.
  - unfold components_of. rewrite Len. intros u v Bu Bv. rewrite <- E by auto. rewrite El, !(map_nth' _ _ _ 0) by lia.
    split; [|intros ->; reflexivity]. intros Er.
    destruct (Rk (nth u r 0)) as (c1 & _ & E1 & R1); [apply nth_In; lia|]. destruct (Rk (nth v r 0)) as (c2 & _ & E2 & R2); [apply nth_In; lia|]. congruence.
Qed.

(** ** Integer offsets *)
Lemma exact_mip_sound : mip_sound exact_mip.
Proof.
  intros p x E. unfold exact_mip in E. destruct (_ && _) eqn:C; [|discriminate]. injection E as <-. set (x := guess p) in *.
  apply andb_prop in C as [C C3]. apply andb_prop in C as [C1 C2]. apply Z.eqb_eq in C2. unfold feasible_b in C1. apply andb_prop in C1 as [C1 C5]. apply andb_prop in C1 as [C0 C4].
  rewrite forallb_forall in C3, C4, C5. split.
  - split; [lia|]. split.
    + intros i Bi. specialize (C4 i ltac:(apply in_seq; lia)). cbv beta in C4. lia.
    + intros form rhs I. specialize (C5 _ I). apply Z.eqb_eq in C5. exact C5.
  - intros y (Ly & By & _). rewrite C2. unfold lin_val.
    assert (forall l, (forall t, In t l -> In t (mip_obj p)) -> (0 <= sumZ (map (fun t : nat * Z => snd t * nth (fst t) y 0) l))%Z) as K.
    { induction l as [|t l IH]; intros Hi; unfold sumZ in *; cbn [map fold_right]; [reflexivity|].
      assert (0 <= snd t * nth (fst t) y 0)%Z; [|specialize (IH ltac:(intros z Iz; apply Hi; now right)); lia].
      specialize (C3 t (Hi t (or_introl eq_refl))). destruct (Nat.lt_ge_cases (fst t) (length y)) as [Lt|Ge]; [|rewrite (nth_overflow y) by auto; lia].
      specialize (By (fst t) ltac:(lia)). apply Z.mul_nonneg_nonneg; lia. }
    apply (K (mip_obj p)). auto.
Qed.

(** ** Real offsets *)
Lemma first_at_is v row k : k < length row -> (nth k row 0 == v)%Q -> (forall i, i < k -> ~ (nth i row 0 == v)%Q) -> first_at v row = k.
Proof.
  revert k. induction row as [|x row IH]; intros k B E N; [cbn in B; lia|]. cbn [first_at]. destruct k as [|k].
  - cbn in E. apply Qeq_bool_iff in E. now rewrite E.
  - destruct (Qeq_bool x v) eqn:C; [apply Qeq_bool_iff in C; exfalso; apply (N 0); [lia|exact C]|]. f_equal. apply IH; [cbn in B; lia|exact E|].
    intros i Bi. apply (N (S i)). lia.
Qed.

Lemma row_pair_diff n a b : a < n -> b < n -> a <> b -> row_pair (diff_row n (a, b)) = (a, b).
Proof.
  intros Ba Bb N. assert (forall i, i < n -> nth i (diff_row n (a, b)) 0%Q = if i =? b then 1%Q else if i =? a then (-1)%Q else 0%Q) as Nt.
  { intros i Bi. unfold diff_row. cbn [fst snd]. destruct (Nat.eqb_spec i b) as [->|N1].
    - apply nth_upd_eq. rewrite upd_length, repeat_length. auto.
    - rewrite nth_upd_neq by auto. destruct (Nat.eqb_spec i a) as [->|N2]; [apply nth_upd_eq; now rewrite repeat_length|]. rewrite nth_upd_neq by auto. apply nth_repeat. }
  assert (length (diff_row n (a, b)) = n) as L by (unfold diff_row; now rewrite !upd_length, repeat_length).
  unfold row_pair. f_equal; (apply first_at_is; [lia| |]).
  - rewrite Nt by auto. destruct (Nat.eqb_spec a b); [contradiction|]. now rewrite Nat.eqb_refl.
  - intros i Bi. rewrite Nt by lia. destruct (i =? b); [discriminate|]. destruct (Nat.eqb_spec i a); [lia|discriminate].
  - rewrite Nt by auto. now rewrite Nat.eqb_refl.
  - intros i Bi. rewrite Nt by lia. destruct (Nat.eqb_spec i b); [lia|]. destruct (i =? a); discriminate.
Qed.

Definition settled (n : nat) (x0 : list Q) (done : list (nat * nat)) (st : list nat * list Q) : Prop :=
  labelled n done (fst st) /\ length (snd st) = n /\
  forall u v, u < n -> v < n -> nth u (fst st) 0 = nth v (fst st) 0 -> (nth v (snd st) 0 - nth u (snd st) 0 == nth v x0 0 - nth u x0 0)%Q.

Lemma move_settled n x0 done st a b d : settled n x0 done st -> a < n -> b < n -> (nth b x0 0 - nth a x0 0 == d)%Q ->
  settled n x0 (done ++ [(a, b)]) (move st ((a, b), d)).
Proof.
  destruct st as [l x]. intros (Hl & Lx & E) Ba Bb Hd. cbn [fst snd] in *. destruct Hl as (Ll & Hl1 & Hl2).
  assert (forall u, u < n -> nth u (snd (move (l, x) ((a, b), d))) 0%Q = if nth b l 0 =? nth a l 0 then nth u x 0%Q else if nth u l 0 =? nth b l 0 then (nth u x 0 + (nth a x 0 + d - nth b x 0))%Q else nth u x 0%Q) as Nx.
  { intros u Bu. cbn [move snd]. destruct (nth b l 0 =? nth a l 0); [reflexivity|]. rewrite (map_nth' _ _ _ (0, 0%Q)) by (rewrite combine_length; lia).
    rewrite combine_nth by lia. reflexivity. }
  split; [|split].
  - cbn [move fst]. apply merge_labelled; [split; auto|auto|auto].
  - cbn [move snd]. destruct (_ =? _); [exact Lx|]. rewrite map_length, combine_length. lia.
  - intros u v Bu Bv Eq. rewrite !Nx by auto. cbn [move fst] in Eq. rewrite !merge_nth in Eq by lia. cbn [fst snd] in Eq.
    destruct (Nat.eqb_spec (nth b l 0) (nth a l 0)) as [Eab|Nab].
    + apply E; auto. destruct (Nat.eqb_spec (nth u l 0) (nth b l 0)), (Nat.eqb_spec (nth v l 0) (nth b l 0)); lia.
    + destruct (Nat.eqb_spec (nth u l 0) (nth b l 0)) as [Eu|Nu], (Nat.eqb_spec (nth v l 0) (nth b l 0)) as [Ev|Nv].
      * pose proof (E u v Bu Bv ltac:(congruence)). lra.
      * pose proof (E u b Bu Bb ltac:(congruence)). pose proof (E a v Ba Bv ltac:(congruence)). lra.
      * pose proof (E u a Bu Ba ltac:(congruence)). pose proof (E b v Bb Bv ltac:(congruence)). lra.
      * pose proof (E u v Bu Bv Eq). lra.
Qed.

Lemma exact_lsq_ok : lsq_ok exact_lsq.
Proof.
  intros n l b x0 Nl Hr Lb L0 Ex. unfold exact_lsq.
  assert (length (nth 0 (map (diff_row n) l) []) = n) as ->.
  { destruct l as [|p l]; [contradiction|]. cbn. unfold diff_row. now rewrite !upd_length, repeat_length. }
  rewrite map_map. rewrite (map_ext_in _ (fun p => p)); [rewrite map_id|intros [a c] I; destruct (Hr _ I) as (A & B & C); now apply row_pair_diff].
  assert (forall es done st, settled n x0 done st -> (forall p d, In (p, d) es -> fst p < n /\ snd p < n /\ (nth (snd p) x0 0 - nth (fst p) x0 0 == d)%Q) ->
    settled n x0 (done ++ map fst es) (fold_left move es st)) as K.
  { induction es as [|[[a c] d] es IH]; intros done st Hs Hb; cbn [fold_left map fst]; [now rewrite app_nil_r|].
    replace (done ++ (a, c) :: map fst es) with ((done ++ [(a, c)]) ++ map fst es) by (rewrite <- app_assoc; reflexivity).
    destruct (Hb (a, c) d (or_introl eq_refl)) as (A & B & C). apply IH; [now apply move_settled|]. intros p d' I. apply Hb. now right. }
  destruct (K (combine l b) [] (seq 0 n, repeat 0%Q n)) as (Hl & Ly & Hy).
  { split; [apply start_labelled|]. split; [apply repeat_length|]. cbn [fst snd]. intros u v Bu Bv. rewrite !seq_nth by auto. intros E. assert (u = v) as -> by lia. lra. }
  { intros p d I. apply (In_nth _ _ ((0, 0), 0%Q)) in I as (k & Bk & Ek). rewrite combine_length in Bk. rewrite combine_nth in Ek by auto. injection Ek as Ep Ed.
    specialize (Ex k ltac:(lia)). cbv zeta in Ex. rewrite Ep, Ed in Ex. destruct (Hr p) as (A & B & _); [rewrite <- Ep; apply nth_In; lia|]. auto. }
  set (y := snd (fold_left move _ _)) in *. split; [exact Ly|]. cbn [app] in Hl.
  assert (map fst (combine l b) = l) as El.
  { clear -Lb. revert b Lb. induction l as [|p l IH]; intros [|d b] Lb; cbn in *; try lia; [reflexivity|]. f_equal. apply IH. lia. }
  rewrite El in Hl.
  assert (normsq (subQ b (mat_vec (map (diff_row n) l) y)) == 0)%Q as Z0.
  { assert (forall k, k < length l -> (nth k b 0 == dotQ (diff_row n (nth k l (0%nat, 0%nat))) y)%Q) as Eqs.
    { intros k Bk. destruct (nth k l (0, 0)) as [a c] eqn:Ep. destruct (Hr (a, c)) as (A & B & C); [rewrite <- Ep; now apply nth_In|]. cbn [fst snd] in *.
      rewrite diff_row_dot by auto. specialize (Ex k Bk). cbv zeta in Ex. rewrite Ep in Ex. cbn [fst snd] in Ex. rewrite <- Ex. symmetry. apply Hy; auto.
      destruct Hl as (_ & _ & Hl). apply Hl; auto. eapply reach_step; [constructor|]. left. rewrite <- Ep. now apply nth_In. }
    clearbody y. clear -Eqs Lb. unfold mat_vec. revert b Lb Eqs. induction l as [|p l IH]; intros [|d b] Lb Eqs; cbn [length] in Lb; try lia; [reflexivity|].
    unfold subQ, normsq, sumQ in *. cbn [map combine fold_right fst snd]. rewrite IH; [|lia|intros k Bk; apply (Eqs (S k)); cbn; lia].
    pose proof (Eqs 0 ltac:(cbn; lia)) as E0. cbn [nth] in E0. rewrite E0. ring. }
  intros z Lz. rewrite Z0. unfold normsq, sumQ. generalize (subQ b (mat_vec (map (diff_row n) l) z)). clear. induction l as [|v l IH]; cbn [map fold_right]; [discriminate|].
  assert (0 <= v * v)%Q as P by nra. lra.
Qed.
