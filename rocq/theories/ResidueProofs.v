(** Counting cycles through links; residues. *)
From Verif Require Import Base BaseLemmas GraphModel GraphSpec GraphProofs McfModel McfSpec
  PhaseProofs DualProofs.
From Coq Require Import ZifyBool.
Set Default Goal Selector "!".

(** * Consequences of planarity *)
Lemma planar_simple g : planar g -> simple_links g.
Proof. intros H. split; [apply pl_nodup; auto|]. intros a b Hl. apply pl_lt in Hl; auto. lia. Qed.

Lemma filter_eq_NoDup (p : nat * nat) l : NoDup l ->
  length (filter (fun s => pair_eqb s p) l) = if in_dec pair_dec p l then 1 else 0.
Proof.
  induction 1 as [|x l Hx Hn IH]; cbn [filter]; [reflexivity|].
  destruct (pair_eqb x p) eqn:E.
  - apply pair_eqb_iff in E; subst. destruct (in_dec _ p (p :: l)) as [|N]; [|exfalso; apply N; now left].
    cbn [length]. rewrite IH. destruct (in_dec _ p l); [contradiction|auto].
  - apply pair_eqb_false in E. rewrite IH.
    destruct (in_dec _ p l) as [I|I], (in_dec _ p (x :: l)) as [I'|I']; auto.
    + exfalso; apply I'; now right.
    + exfalso. destruct I'; contradiction.
Qed.

Lemma side_use_dirs k a b s u : In u (side_use k a b s) -> snd u = 1%Z \/ snd u = (-1)%Z.
Proof.
  unfold side_use. destruct (_ && _); [|destruct (_ && _)]; cbn; intros H; try tauto;
    destruct H as [<-|[]]; auto.
Qed.

Lemma uses_from_dirs k cycles a b u : In u (uses_from k cycles a b) -> snd u = 1%Z \/ snd u = (-1)%Z.
Proof.
  revert k. induction cycles as [|c t IH]; intros k; cbn [uses_from]; [intros []|].
  rewrite in_app_iff, in_flat_map. intros [(s & _ & H)|H]; [eapply side_use_dirs|]; eauto.
Qed.

Lemma count_dirs (l : list (nat * Z)) : (forall u, In u l -> snd u = 1%Z \/ snd u = (-1)%Z) ->
  length l = count_occ Z.eq_dec (map snd l) 1%Z + count_occ Z.eq_dec (map snd l) (-1)%Z.
Proof.
  induction l as [|[c d] t IH]; intros H; [reflexivity|]. cbn [map snd length count_occ].
  rewrite IH by (intros; apply H; now right).
  destruct (H (c, d) (or_introl eq_refl)) as [E|E]; cbn in E; subst d;
  destruct (Z.eq_dec _ 1), (Z.eq_dec _ (-1)); try lia.
Qed.

Lemma planar_uses_ok g a b : planar g -> In (a, b) (g_links g) -> planar_uses (uses g a b).
Proof.
  intros Hp Hl. assert (a < b) as Hab by (apply pl_lt in Hl; auto; lia).
  assert (forall u, In u (uses g a b) -> 1 <= fst u) as Hc.
  { intros [c d] H. apply uses_In in H as (n & _ & -> & _); auto. cbn. lia. }
  assert (forall u, In u (uses g a b) -> snd u = 1%Z \/ snd u = (-1)%Z) as Hd
    by (intros u; apply uses_from_dirs).
  pose proof (count_dirs _ Hd) as HL.
  pose proof (uses_dir_count 1 (g_cycles g) a b 1 Hab) as C1.
  pose proof (uses_dir_count 1 (g_cycles g) a b (-1) Hab) as C2.
  destruct (Z.eq_dec 1 1) as [_|N]; [|lia].
  destruct (Z.eq_dec (-1) 1) as [N|_]; [lia|]. destruct (Z.eq_dec (-1) (-1)) as [_|N]; [|lia].
  fold (all_sides g) in C1, C2. fold (uses g a b) in C1, C2.
  rewrite filter_eq_NoDup in C1 by (apply pl_once; auto).
  rewrite filter_eq_NoDup in C2 by (apply pl_once; auto).
  pose proof (pl_used _ Hp _ _ Hl) as Hu.
  set (U := uses g a b) in *.
  assert (count_occ Z.eq_dec (map snd U) 1%Z <= 1) as B1 by (destruct (in_dec pair_dec (a, b) (all_sides g)); lia).
  assert (count_occ Z.eq_dec (map snd U) (-1)%Z <= 1) as B2 by (destruct (in_dec pair_dec (b, a) (all_sides g)); lia).
  assert (1 <= length U).
  { rewrite HL. destruct (in_dec pair_dec (a, b) (all_sides g)), (in_dec pair_dec (b, a) (all_sides g)); try lia. tauto. }
  destruct U as [|[c d] [|[c' d'] [|? ?]]]; cbn [length] in *; try lia.
  - constructor; [apply (Hd (c, d)); now left|apply (Hc (c, d)); now left].
  - assert (d = 1%Z \/ d = (-1)%Z) as Ed by (apply (Hd (c, d)); now left).
    assert (d' = 1%Z \/ d' = (-1)%Z) as Ed' by (apply (Hd (c', d')); right; now left).
    assert (d' = - d)%Z as ->.
    { destruct Ed, Ed'; subst; cbn in B1, B2; lia. }
    constructor; auto; [apply (Hc (c, d)); now left|apply (Hc (c', (-d)%Z)); right; now left].
Qed.

Lemma planar_solver g : planar g -> make_solver g = Ok (dual_solver g).
Proof.
  intros Hp. apply make_solver_ok.
  - now apply planar_simple.
  - intros a b. now apply pl_side.
  - intros a b Hl. apply planar_uses_ok in Hl; auto. destruct Hl; cbn; lia.
Qed.

(** * Net number of forward traversals of a link by a list of sides *)
Definition net (sd : list (nat * nat)) (a b : nat) : Z :=
  sumZ (map snd (flat_map (side_use 0 a b) sd)).

Lemma side_use_snd k k' a b s : map snd (side_use k a b s) = map snd (side_use k' a b s).
Proof. unfold side_use. destruct (_ && _); [|destruct (_ && _)]; reflexivity. Qed.

Lemma net_k k sd a b : sumZ (map snd (flat_map (side_use k a b) sd)) = net sd a b.
Proof.
  unfold net. induction sd as [|s t IH]; [reflexivity|]. cbn [flat_map].
  rewrite !map_app, !sumZ_app, IH, (side_use_snd k 0). reflexivity.
Qed.

Lemma net_app sd sd' a b : net (sd ++ sd') a b = (net sd a b + net sd' a b)%Z.
Proof. unfold net. now rewrite flat_map_app, map_app, sumZ_app. Qed.

Lemma uses_from_ge k cycles a b u : In u (uses_from k cycles a b) -> k <= fst u.
Proof.
  revert k. induction cycles as [|c t IH]; intros k; cbn [uses_from]; [intros []|].
  rewrite in_app_iff, in_flat_map. intros [(s & _ & H)|H].
  - unfold side_use in H. destruct (_ && _); [|destruct (_ && _)]; cbn in H; try tauto;
      destruct H as [<-|[]]; cbn; lia.
  - apply IH in H. lia.
Qed.

Lemma filter_none {A} (f : A -> bool) l : (forall x, In x l -> f x = false) -> filter f l = [].
Proof.
  induction l as [|a l IH]; intros H; [reflexivity|]. cbn. rewrite H by now left.
  apply IH. intros; apply H; now right.
Qed.
Lemma filter_all {A} (f : A -> bool) l : (forall x, In x l -> f x = true) -> filter f l = l.
Proof.
  induction l as [|a l IH]; intros H; [reflexivity|]. cbn. rewrite H by now left.
  f_equal. apply IH. intros; apply H; now right.
Qed.

Lemma uses_net k cycles a b : forall n, n < length cycles ->
  sumZ (map snd (filter (fun u => fst u =? n + k) (uses_from k cycles a b)))
  = net (sides (nth n cycles [])) a b.
Proof.
  revert k. induction cycles as [|c t IH]; intros k n Hn; cbn [length] in Hn; [lia|].
  cbn [uses_from]. rewrite filter_app, map_app, sumZ_app.
  assert (forall u, In u (flat_map (side_use k a b) (sides c)) -> fst u = k) as Hk.
  { intros u H. apply in_flat_map in H as (s & _ & H).
    unfold side_use in H. destruct (_ && _); [|destruct (_ && _)]; cbn in H; try tauto;
      destruct H as [<-|[]]; auto. }
  destruct n as [|n].
  - rewrite filter_all, net_k; [|intros u Hu; apply Hk in Hu; lia].
    rewrite filter_none; [cbn; lia|]. intros u Hu. apply uses_from_ge in Hu. lia.
  - rewrite filter_none; [|intros u Hu; apply Hk in Hu; lia]. cbn [map]. cbn [nth].
    rewrite <- (IH (S k) n) by lia. cbn [sumZ fold_right]. 
    replace (S n + k) with (n + S k) by lia. lia.
Qed.

Local Open Scope Q_scope.

(** * Circulation as a sum over links *)
Lemma sum_indicator (links : list (nat * nat)) (x y : nat) (f : nat * nat -> Q) (c : Z) :
  NoDup links -> In (x, y) links ->
  sumQ (map (fun l => inject_Z (if pair_eqb l (x, y) then c else 0) * f l) links) == inject_Z c * f (x, y).
Proof.
  induction 1 as [|l t Hl Hn IH]; intros Hin; [destruct Hin|]. cbn [map]. rewrite sumQ_cons.
  destruct (pair_eqb l (x, y)) eqn:E.
  - apply pair_eqb_iff in E. subst. rewrite sumQ_map_zero; [ring|].
    intros m Hm. replace (pair_eqb m (x, y)) with false; [cbn; ring|]. symmetry.
    apply pair_eqb_false. congruence.
  - apply pair_eqb_false in E. destruct Hin as [->|Hin]; [contradiction|]. rewrite IH by auto.
    cbn. ring.
Qed.

Lemma net_single s a b : (a < b)%nat ->
  net [s] a b = if pair_eqb (a, b) s then 1%Z else if pair_eqb (a, b) (snd s, fst s) then (-1)%Z else 0%Z.
Proof.
  intros Hab. destruct s as [x y]. unfold net, side_use, pair_eqb. cbn [flat_map fst snd].
  rewrite (Nat.eqb_sym x a), (Nat.eqb_sym y b).
  destruct ((a =? x)%nat && (b =? y)%nat) eqn:E; [reflexivity|].
  rewrite (Nat.eqb_sym x b), (Nat.eqb_sym y a), (andb_comm (b =? x)%nat).
  destruct ((a =? y)%nat && (b =? x)%nat) eqn:E'; reflexivity.
Qed.

Lemma circ_links (links : list (nat * nat)) (f : nat -> nat -> Q) sd :
  NoDup links -> (forall a b, In (a, b) links -> (a < b)%nat) ->
  (forall a b, In (a, b) sd -> listed links a b) ->
  sumQ (map (fun s => alongQ f (fst s) (snd s)) sd)
  == sumQ (map (fun l => inject_Z (net sd (fst l) (snd l)) * f (fst l) (snd l)) links).
Proof.
  intros Hn Hlt. induction sd as [|s t IH]; intros Hs.
  - cbn [map]. rewrite sumQ_nil. symmetry. apply sumQ_map_zero. intros l _. unfold net. cbn. ring.
  - cbn [map]. rewrite sumQ_cons, IH by (intros; apply Hs; now right).
    rewrite (sumQ_map_ext (fun l => inject_Z (net (s :: t) (fst l) (snd l)) * f (fst l) (snd l))
      (fun l => inject_Z (net [s] (fst l) (snd l)) * f (fst l) (snd l)
                + inject_Z (net t (fst l) (snd l)) * f (fst l) (snd l))).
    2:{ intros l _. change (s :: t) with ([s] ++ t). rewrite net_app, inject_Z_add. ring. }
    rewrite sumQ_map_add. apply Qplus_comp; [|reflexivity].
    destruct s as [x y]. cbn [fst snd].
    specialize (Hs x y (or_introl eq_refl)).
    unfold alongQ. destruct (Nat.ltb_spec x y) as [L|L].
    + assert (In (x, y) links) as Hin.
      { destruct Hs as [|H]; auto. apply Hlt in H. lia. }
      rewrite (sumQ_map_ext _ (fun l => inject_Z (if pair_eqb l (x, y) then 1 else 0) * f (fst l) (snd l))).
      * rewrite (sum_indicator links x y (fun l => f (fst l) (snd l)) 1) by auto. cbn. ring.
      * intros [a b] Hab. cbn [fst snd]. rewrite net_single by auto. cbn [fst snd].
        destruct (pair_eqb (a, b) (x, y)); [reflexivity|].
        destruct (pair_eqb (a, b) (y, x)) eqn:E; [|reflexivity].
        apply pair_eqb_iff in E. injection E as -> ->. apply Hlt in Hab. lia.
    + assert (In (y, x) links) as Hin.
      { destruct Hs as [H|]; auto. apply Hlt in H. lia. }
      rewrite (sumQ_map_ext _ (fun l => inject_Z (if pair_eqb l (y, x) then -1 else 0) * f (fst l) (snd l))).
      * rewrite (sum_indicator links y x (fun l => f (fst l) (snd l)) (-1)) by auto. cbn. ring.
      * intros [a b] Hab. cbn [fst snd]. rewrite net_single by auto. cbn [fst snd].
        destruct (pair_eqb (a, b) (x, y)) eqn:E; [|reflexivity].
        apply pair_eqb_iff in E. injection E as -> ->. apply Hlt in Hab. lia.
Qed.

Lemma circQ_links g f n : simple_links g ->
  (forall a b, In (a, b) (all_sides g) -> listed (g_links g) a b) -> (n < length (g_cycles g))%nat ->
  circQ f (nth n (g_cycles g) [])
  == sumQ (map (fun l => inject_Z (net (sides (nth n (g_cycles g) [])) (fst l) (snd l)) * f (fst l) (snd l)) (g_links g)).
Proof.
  intros [Hn Hlt] Hs Hlen. apply circ_links; auto. intros a b H. apply Hs. unfold all_sides.
  apply in_flat_map. exists (nth n (g_cycles g) []). split; auto. now apply nth_In.
Qed.

(** * Values given as lists *)
Lemma link_val_combine {A} (d : A) links vals : NoDup links -> length vals = length links ->
  map (fun l => (l, link_val d links vals (fst l) (snd l))) links = combine links vals.
Proof.
  revert vals. induction links as [|[a b] t IH]; intros [|v vs] Hn HL; cbn [length] in HL; try lia; [reflexivity|].
  inversion Hn as [|? ? Ha Ht]; subst. cbn [map combine link_val fst snd]. rewrite !Nat.eqb_refl. cbn [andb].
  f_equal. rewrite <- IH by (auto; lia). apply map_ext_in. intros [x y] Hx. cbn [fst snd].
  replace ((a =? x)%nat && (b =? y)%nat) with false; [reflexivity|].
  symmetry. apply andb_false_iff. destruct (Nat.eqb_spec a x); auto. subst. right.
  apply Nat.eqb_neq. intros ->. contradiction.
Qed.

Lemma link_val_nth {A} (d : A) links vals i a b : NoDup links -> length vals = length links ->
  (i < length links)%nat -> nth i links (0, 0)%nat = (a, b) -> link_val d links vals a b = nth i vals d.
Proof.
  revert vals i. induction links as [|[x y] t IH]; intros [|v vs] i Hn HL Hi E; cbn [length] in *; try lia.
  inversion Hn as [|? ? Ha Ht]; subst. destruct i as [|i]; cbn [nth] in E.
  - injection E as -> ->. cbn. now rewrite !Nat.eqb_refl.
  - cbn [link_val nth]. replace ((x =? a)%nat && (y =? b)%nat) with false.
    + apply (IH vs i); auto; lia.
    + symmetry. apply andb_false_iff. destruct (Nat.eqb_spec x a); auto. subst. right.
      apply Nat.eqb_neq. intros ->. apply Ha. rewrite <- E. apply nth_In. lia.
Qed.

Lemma sum_links_vals {A} (d : A) (links : list (nat * nat)) vals (F : nat * nat -> A -> Q) :
  NoDup links -> length vals = length links ->
  sumQ (map (fun l => F l (link_val d links vals (fst l) (snd l))) links)
  == sumQ (map (fun lv => F (fst lv) (snd lv)) (combine links vals)).
Proof.
  intros Hn HL. rewrite <- (link_val_combine d) by auto. rewrite map_map. reflexivity.
Qed.

(** * add_at *)
Lemma add_at_length acc idx vals : length (add_at acc idx vals) = length acc.
Proof.
  unfold add_at. revert acc. induction (combine idx vals) as [|[i v] t IH]; intros acc; [reflexivity|].
  cbn [fold_left]. rewrite IH. apply upd_length.
Qed.

Lemma add_at_nth idx vals acc k : (k < length acc)%nat ->
  nth k (add_at acc idx vals) 0
  == nth k acc 0 + sumQ (map (fun iv => if (fst iv =? k)%nat then snd iv else 0) (combine idx vals)).
Proof.
  unfold add_at. revert acc. induction (combine idx vals) as [|[i v] t IH]; intros acc Hk.
  - cbn [fold_left map]. rewrite sumQ_nil. ring.
  - cbn [fold_left map fst snd]. rewrite IH by (rewrite upd_length; auto). rewrite sumQ_cons.
    destruct (Nat.eqb_spec i k) as [->|Hn].
    + rewrite nth_upd_eq by auto. ring.
    + rewrite nth_upd_neq by auto. ring.
Qed.

(** Entry n+1 of the accumulated gradients is the circulation of cycle n. *)
Definition grad_sums (s : solver) (gr : list Q) : list Q :=
  let acc := repeat 0%Q (length (g_cycles (s_graph s)) + 1) in
  let acc := add_at acc (map fst (s_dual s))
               (map (fun dg => inject_Z (fst dg) * snd dg)%Q (combine (map fst (s_dir s)) gr)) in
  add_at acc (map snd (s_dual s))
    (map (fun dg => inject_Z (fst dg) * snd dg)%Q (combine (map snd (s_dir s)) gr)).

Lemma nth_repeat0 n k : nth k (repeat 0 n) 0 = 0.
Proof. revert k; induction n as [|n IH]; intros [|k]; cbn; auto. Qed.

Lemma pick_sum (F : nat * nat -> nat * Z) links vals k :
  sumQ (map (fun iv => if (fst iv =? k)%nat then snd iv else 0)
    (combine (map (fun l => fst (F l)) links)
       (map (fun dg => inject_Z (fst dg) * snd dg) (combine (map (fun l => snd (F l)) links) vals))))
  == sumQ (map (fun lv => (if (fst (F (fst lv)) =? k)%nat then inject_Z (snd (F (fst lv))) else 0) * snd lv)
       (combine links vals)).
Proof.
  revert vals. induction links as [|l t IH]; intros [|v vs]; cbn [map combine]; try reflexivity.
  rewrite !sumQ_cons, IH. cbn [fst snd]. destruct (_ =? _)%nat; ring.
Qed.

Lemma grad_sums_circ g gr n : planar g -> length gr = length (g_links g) -> (n < length (g_cycles g))%nat ->
  nth (n + 1) (grad_sums (dual_solver g) gr) 0
  == circQ (link_val 0 (g_links g) gr) (nth n (g_cycles g) []).
Proof.
  intros Hp HL Hn. unfold grad_sums. cbv zeta. cbn [dual_solver s_graph s_dual s_dir].
  assert (n + 1 < length (repeat 0%Q (length (g_cycles g) + 1)))%nat as Hlen by (rewrite repeat_length; lia).
  rewrite add_at_nth by (rewrite add_at_length; auto). rewrite add_at_nth by auto.
  rewrite nth_repeat0, !map_map.
  pose (U := fun l : nat * nat => uses g (fst l) (snd l)).
  pose proof (pick_sum (fun l => (fst (fst (use_row (U l))), fst (snd (use_row (U l))))) (g_links g) gr (n + 1)) as P1.
  pose proof (pick_sum (fun l => (snd (fst (use_row (U l))), snd (snd (use_row (U l))))) (g_links g) gr (n + 1)) as P2.
  cbn [fst snd] in P1, P2. unfold U in P1, P2. rewrite P1, P2. clear P1 P2.
  destruct (planar_simple g Hp) as [Hnd Hlt].
  rewrite circQ_links by first [now apply planar_simple | solve [auto] | intros; now apply pl_side].
  rewrite (sum_links_vals 0 (g_links g) gr (fun l v => inject_Z (net (sides (nth n (g_cycles g) [])) (fst l) (snd l)) * v)) by auto.
  rewrite <- Qplus_assoc, <- sumQ_map_add, Qplus_0_l. apply sumQ_map_ext.
  intros [[a b] v] Hin. cbn [fst snd].
  assert (In (a, b) (g_links g)) as Hl by (apply in_combine_l in Hin; auto).
  rewrite <- (uses_net 1 (g_cycles g) a b n) by auto. fold (uses g a b).
  destruct (planar_uses_ok g a b Hp Hl) as [c d Hd Hc|c c' d Hd Hc Hc']; unfold use_row; cbn [nth fst snd filter].
  - replace (0 =? n + 1)%nat with false by lia.
    destruct (c =? n + 1)%nat; cbn [map snd]; rewrite ?sumZ_cons; cbn [sumZ fold_right]; rewrite ?Z.add_0_r; ring.
  - destruct (c =? n + 1)%nat, (c' =? n + 1)%nat; cbn [map snd]; rewrite ?sumZ_cons; cbn [sumZ fold_right];
      rewrite ?Z.add_0_r, ?inject_Z_add; ring.
Qed.

Lemma residues_grad_eq g gr : length gr = length (g_links g) ->
  compute_residues_from_gradients (dual_solver g) gr = Ok (round_residues (tl (grad_sums (dual_solver g) gr))).
Proof.
  intros HL. unfold compute_residues_from_gradients. cbn [dual_solver s_graph].
  rewrite HL, Nat.eqb_refl. reflexivity.
Qed.

Lemma grad_sums_length s gr : length (grad_sums s gr) = (length (g_cycles (s_graph s)) + 1)%nat.
Proof. unfold grad_sums. cbv zeta. now rewrite !add_at_length, repeat_length. Qed.

Lemma nth_tl {A} (l : list A) k d : nth k (tl l) d = nth (k + 1) l d.
Proof. destruct l as [|a l]; cbn [tl]; [destruct k; reflexivity|]. now rewrite Nat.add_1_r. Qed.
Lemma length_tl {A} (l : list A) : length (tl l) = (length l - 1)%nat.
Proof. destruct l; cbn; lia. Qed.

Lemma round_residues_sum sums : sumZ (round_residues sums) = 0%Z.
Proof. unfold round_residues. cbv zeta. rewrite sumZ_cons. lia. Qed.
Lemma round_residues_length sums : length (round_residues sums) = S (length sums).
Proof. unfold round_residues. cbv zeta. cbn. now rewrite map_length. Qed.
Lemma round_residues_nth sums n : (n < length sums)%nat ->
  nth (n + 1) (round_residues sums) 0%Z = rint (nth n sums 0 / twopi).
Proof.
  intros H. unfold round_residues. cbv zeta. rewrite Nat.add_1_r. cbn [nth].
  now rewrite (map_nth' _ _ n 0) by auto.
Qed.

(** Both residue functions, in terms of circulations. *)
Theorem residues_from_gradients_spec g gr : planar g -> length gr = length (g_links g) ->
  exists r, compute_residues_from_gradients (dual_solver g) gr = Ok r /\
    length r = S (length (g_cycles g)) /\ sumZ r = 0%Z /\
    forall n, (n < length (g_cycles g))%nat ->
      nth (n + 1) r 0%Z = rint (circQ (link_val 0 (g_links g) gr) (nth n (g_cycles g) []) / twopi).
Proof.
  intros Hp HL. exists (round_residues (tl (grad_sums (dual_solver g) gr))). split; [now apply residues_grad_eq|].
  assert (length (tl (grad_sums (dual_solver g) gr)) = length (g_cycles g)) as L.
  { rewrite length_tl, grad_sums_length. cbn. lia. }
  split; [now rewrite round_residues_length, L|]. split; [apply round_residues_sum|].
  intros n Hn. rewrite round_residues_nth by lia. apply rint_comp. rewrite nth_tl.
  now rewrite grad_sums_circ.
Qed.

(** Phase differences along the links. *)
Definition pd_link (p : list Q) (a b : nat) : Q := phase_diff (nth a p 0) (nth b p 0) 0.
Definition pdk (p : list Q) (a b : nat) : Z := pd_cycles (nth a p 0) (nth b p 0) 0.

Lemma along_pd p a b : a <> b -> alongQ (pd_link p) a b == phase_diff (nth a p 0) (nth b p 0) 0.
Proof.
  intros H. unfold alongQ, pd_link. destruct (Nat.ltb_spec a b); [reflexivity|]. now rewrite <- pd_swap.
Qed.

Lemma alongZ_pdk p a b : a <> b -> alongZ (pdk p) a b = pdk p a b.
Proof.
  intros H. unfold alongZ, pdk. destruct (Nat.ltb_spec a b); [reflexivity|].
  rewrite <- pd_cycles_swap. reflexivity.
Qed.

(** Telescoping sum around a closed list of vertices. *)
Lemma tele_aux (x : nat -> Q) a t : forall b,
  sumQ (map (fun s => x (snd s) - x (fst s)) (combine (b :: t) (t ++ [a]))) == x a - x b.
Proof.
  induction t as [|c t IH]; intros b.
  - cbn [app combine map fst snd]. rewrite sumQ_cons, sumQ_nil. ring.
  - change (combine (b :: c :: t) ((c :: t) ++ [a])) with ((b, c) :: combine (c :: t) (t ++ [a])).
    cbn [map fst snd]. rewrite sumQ_cons, IH. ring.
Qed.
Lemma tele (x : nat -> Q) c : sumQ (map (fun s => x (snd s) - x (fst s)) (sides c)) == 0.
Proof. destruct c as [|a t]; [reflexivity|]. unfold sides. rewrite tele_aux. ring. Qed.

(** Circulation of link values congruent to point differences. *)
Lemma circ_cong (x : nat -> Q) (f : nat -> nat -> Q) (m : nat -> nat -> Z) c :
  (forall a b, In (a, b) (sides c) -> a <> b) ->
  (forall a b, (In (a, b) (sides c) \/ In (b, a) (sides c)) -> (a < b)%nat ->
     f a b == x b - x a + twopi * inject_Z (m a b)) ->
  circQ f c == twopi * inject_Z (circZ m c).
Proof.
  intros Hne Hf. unfold circQ, circZ. rewrite <- sumQ_inject, map_map, <- sumQ_map_mul.
  rewrite <- (Qplus_0_l (sumQ (map (fun x0 => twopi * _) _))), <- (tele x c), <- sumQ_map_add.
  apply sumQ_map_ext. intros [a b] Hin. cbn [fst snd]. unfold alongQ, alongZ.
  specialize (Hne a b Hin). destruct (Nat.ltb_spec a b) as [L|L].
  - apply Hf; auto.
  - rewrite (Hf b a); [|auto|lia]. rewrite inject_Z_opp. ring.
Qed.

Lemma planar_side_neq g c a b : planar g -> In c (g_cycles g) -> In (a, b) (sides c) -> a <> b.
Proof.
  intros Hp Hc Hs. assert (In (a, b) (all_sides g)) as H by (apply in_flat_map; eauto).
  apply pl_side in H as [H|H]; auto; apply pl_lt in H; auto; lia.
Qed.
Lemma planar_side_link g c a b : planar g -> In c (g_cycles g) ->
  (In (a, b) (sides c) \/ In (b, a) (sides c)) -> (a < b)%nat -> In (a, b) (g_links g).
Proof.
  intros Hp Hc Hs L.
  assert (In (a, b) (all_sides g) \/ In (b, a) (all_sides g)) as H.
  { destruct Hs; [left|right]; apply in_flat_map; eauto. }
  destruct H as [H|H]; apply pl_side in H as [H|H]; auto; apply pl_lt in H; auto; lia.
Qed.

Lemma cycle_vertex_side c v : In v c -> exists w, In (v, w) (sides c).
Proof.
  destruct c as [|a t]; [intros []|]. intros H. unfold sides.
  assert (forall (l l' : list nat), length l = length l' -> In v l -> exists w, In (v, w) (combine l l')) as K.
  { clear. induction l as [|x l IH]; intros [|y l'] HL Hin; cbn in *; try lia.
    destruct Hin as [->|Hin]; [eauto|]. destruct (IH l') as [w Hw]; auto. eauto. }
  apply K; auto. rewrite app_length. cbn. lia.
Qed.

Lemma planar_vertex g c v : planar g -> In c (g_cycles g) -> In v c -> (v < g_npoints g)%nat.
Proof.
  intros Hp Hc Hv. destruct (cycle_vertex_side c v Hv) as [w Hw].
  assert (In (v, w) (all_sides g)) as H by (apply in_flat_map; eauto).
  apply pl_side in H as [H|H]; auto; apply pl_lt in H; auto; lia.
Qed.

Lemma compute_residues_spec g p : planar g -> length p = g_npoints g ->
  exists r, compute_residues (dual_solver g) p = Ok r /\
    length r = S (length (g_cycles g)) /\ sumZ r = 0%Z /\
    forall n, (n < length (g_cycles g))%nat ->
      nth (n + 1) r 0%Z = rint (circQ (pd_link p) (nth n (g_cycles g) []) / twopi).
Proof.
  intros Hp HL. unfold compute_residues. cbn [dual_solver s_graph]. rewrite HL, Nat.eqb_refl. cbn [negb].
  destruct (g_cycles g) as [|c0 ct] eqn:EC; [exfalso; now apply (pl_cycles g Hp)|].
  unfold cycle_length. rewrite EC. cbn [bind]. rewrite <- EC.
  assert (existsb (existsb (fun v => (g_npoints g <=? v)%nat)) (g_cycles g) = false) as ->.
  { apply not_true_is_false. intros H. apply existsb_exists in H as (c & Hc & H).
    apply existsb_exists in H as (v & Hv & H). pose proof (planar_vertex g c v Hp Hc Hv). lia. }
  eexists. split; [reflexivity|]. rewrite round_residues_length, map_length.
  split; [auto|]. split; [apply round_residues_sum|].
  intros n Hn. rewrite round_residues_nth by (rewrite map_length; auto).
  rewrite (map_nth' _ _ n []) by auto. apply rint_comp.
  apply Qmult_comp; [|reflexivity].
  set (c := nth n (g_cycles g) []). assert (In c (g_cycles g)) as Hc by (apply nth_In; auto).
  assert (length c0 = length c) as -> by (apply (pl_len g Hp); auto; rewrite EC; now left).
  rewrite steps_sides. unfold circQ. apply sumQ_map_ext. intros [a b] Hs. cbn [fst snd].
  rewrite along_pd; [reflexivity|]. eapply planar_side_neq; eauto.
Qed.

(** Residue = minus the integer circulation of the removed cycles: exact. *)
Lemma circ_pd g p c : planar g -> In c (g_cycles g) ->
  circQ (pd_link p) c == twopi * inject_Z (- circZ (pdk p) c).
Proof.
  intros Hp Hc.
  rewrite (circ_cong (fun v => nth v p 0) (pd_link p) (fun a b => - pdk p a b)%Z c).
  - apply Qmult_comp; [reflexivity|]. apply inject_Z_eq_iff. unfold circZ.
    rewrite <- sumZ_map_opp. apply sumZ_map_ext. intros [a b] _. cbn [fst snd]. unfold alongZ.
    destruct (a <? b)%nat; lia.
  - intros a b. now apply planar_side_neq with (g := g).
  - intros a b _ _. unfold pd_link, pdk. rewrite pd_eq, inject_Z_opp. ring.
Qed.
