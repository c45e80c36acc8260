(** The dual graph built by the solver constructor. *)
From Verif Require Import Base BaseLemmas GraphModel GraphSpec GraphProofs McfModel McfSpec.
From Coq Require Import ZifyBool.
Set Default Goal Selector "!".

Lemma pair_eqb_iff p q : pair_eqb p q = true <-> p = q.
Proof.
  destruct p, q; unfold pair_eqb; cbn. rewrite andb_true_iff, !Nat.eqb_eq.
  split; [intros [-> ->]; auto|intros E; injection E; auto].
Qed.
Lemma pair_eqb_refl p : pair_eqb p p = true.
Proof. now apply pair_eqb_iff. Qed.
Lemma pair_eqb_false p q : pair_eqb p q = false <-> p <> q.
Proof. rewrite <- pair_eqb_iff. destruct (pair_eqb p q); split; congruence. Qed.

(** * Sides *)
Lemma last_nth {A} (t : list A) : forall a d, last (a :: t) d = nth (length t) (a :: t) d.
Proof. induction t as [|b t IH]; intros a d; [reflexivity|]. exact (IH b d). Qed.

Lemma combine_shift {A} (l : list A) d : forall a,
  combine (a :: l) (l ++ [d]) = map (fun i => (nth i (a :: l) d, nth (S i) (a :: l) d)) (seq 0 (length l))
    ++ [(last (a :: l) d, d)].
Proof.
  induction l as [|b t IH]; intros a; [reflexivity|].
  change (combine (a :: b :: t) ((b :: t) ++ [d])) with ((a, b) :: combine (b :: t) (t ++ [d])).
  rewrite IH. cbn [length seq map app]. f_equal.
  rewrite <- seq_shift, map_map. reflexivity.
Qed.

Lemma steps_sides c : steps c (length c) = sides c.
Proof.
  destruct c as [|a t]; [reflexivity|]. unfold steps, sides.
  assert (combine (a :: t) (t ++ [a]) = map (fun ii => (nth ii (a :: t) a, nth ((ii + 1) mod S (length t)) (a :: t) a))
     (seq 0 (S (length t)))) as E.
  { rewrite combine_shift, seq_snoc, map_app. f_equal.
    - apply map_ext_in. intros i Hi. rewrite in_seq in Hi. rewrite Nat.mod_small by lia.
      now replace (i + 1) with (S i) by lia.
    - cbn [map]. rewrite Nat.add_0_l. replace (length t + 1) with (S (length t)) by lia.
      rewrite Nat.mod_same by lia. change (nth 0 (a :: t) a) with a. do 2 f_equal.
      apply last_nth. }
  rewrite E. cbn [length]. apply map_ext_in. intros i Hi. rewrite in_seq in Hi.
  f_equal; apply nth_indep; cbn [length]; [lia|]. apply Nat.mod_upper_bound. lia.
Qed.

(** * The dict as a function on links *)
Definition dict_of (links : list (nat * nat)) (F : nat * nat -> list (nat * Z)) : edge_dict :=
  map (fun l => (l, F l)) links.

Lemma dict_init_NoDup links : NoDup links -> dict_init links = dict_of links (fun _ => []).
Proof.
  intros H. unfold dict_init, dict_of.
  enough (forall l acc, NoDup (map fst acc ++ l) ->
    fold_left (fun d k => if existsb (fun kv : (nat*nat) * list (nat*Z) => pair_eqb (fst kv) k) d then d else d ++ [(k, [])]) l acc
    = acc ++ map (fun l => (l, [])) l) as K by (apply (K links []); auto).
  clear. induction l as [|k l IH]; intros acc Hn; cbn [fold_left map]; [now rewrite app_nil_r|].
  destruct (existsb _ acc) eqn:E.
  - exfalso. apply existsb_exists in E as (kv & Hin & E). apply pair_eqb_iff in E. subst k.
    apply NoDup_remove_2 in Hn. apply Hn. rewrite in_app_iff. left. now apply in_map.
  - rewrite IH.
    + now rewrite <- app_assoc.
    + rewrite map_app, <- app_assoc. exact Hn.
Qed.

Lemma dict_append_in links F k x : NoDup links -> In k links ->
  dict_append (dict_of links F) k x
  = Ok (dict_of links (fun l => if pair_eqb l k then F l ++ [x] else F l)).
Proof.
  unfold dict_of. induction links as [|l t IH]; intros Hn Hin; [destruct Hin|].
  inversion Hn as [|? ? Hl Ht]; subst. cbn [map dict_append].
  destruct (pair_eqb l k) eqn:E.
  - apply pair_eqb_iff in E; subst. do 2 f_equal. apply map_ext_in. intros m Hm.
    replace (pair_eqb m k) with false; [reflexivity|]. symmetry. apply pair_eqb_false. congruence.
  - apply pair_eqb_false in E. rewrite IH; auto. destruct Hin; [contradiction|auto].
Qed.

Lemma dict_append_notin links F k x : ~ In k links -> dict_append (dict_of links F) k x = Err KeyError.
Proof.
  unfold dict_of. induction links as [|l t IH]; intros Hin; [reflexivity|]. cbn [map dict_append].
  replace (pair_eqb l k) with false.
  - rewrite IH; auto. intros ?; apply Hin; now right.
  - symmetry. apply pair_eqb_false. intros ->; apply Hin; now left.
Qed.

Definition side_entry (icyc : nat) (l s : nat * nat) : list (nat * Z) :=
  if pair_eqb l (order_points s)
  then [(icyc + 1, sign_nonzero (Z.of_nat (snd s) - Z.of_nat (fst s)))] else [].

Lemma dict_of_ext links F G : (forall l, In l links -> F l = G l) -> dict_of links F = dict_of links G.
Proof. intros H. apply map_ext_in. intros l Hl. now rewrite H. Qed.

Lemma side_loop_ok links icyc sd : NoDup links ->
  forall F, (forall s, In s sd -> In (order_points s) links) ->
  dual_side_loop icyc sd (dict_of links F)
  = Ok (dict_of links (fun l => F l ++ flat_map (side_entry icyc l) sd)).
Proof.
  intros Hn. induction sd as [|[x y] t IH]; intros F H; cbn [dual_side_loop].
  - f_equal. apply dict_of_ext. intros; cbn. now rewrite app_nil_r.
  - rewrite dict_append_in; auto; [|apply (H (x, y)); now left]. cbn [bind].
    rewrite IH by (intros; apply H; now right). f_equal. apply dict_of_ext. intros l _.
    cbn [flat_map]. unfold side_entry at 2. cbn [fst snd].
    destruct (pair_eqb l _); cbn [app]; [now rewrite <- app_assoc|auto].
Qed.

Lemma side_loop_err links icyc sd : NoDup links ->
  forall F, (exists s, In s sd /\ ~ In (order_points s) links) ->
  dual_side_loop icyc sd (dict_of links F) = Err KeyError.
Proof.
  intros Hn. induction sd as [|[x y] t IH]; intros F (s & Hs & Hni); [destruct Hs|]. cbn [dual_side_loop].
  destruct (in_dec pair_dec (order_points (x, y)) links) as [Hin|Hin].
  - rewrite dict_append_in by auto. cbn [bind]. apply IH. exists s. split; auto.
    destruct Hs as [<-|]; [contradiction|auto].
  - now rewrite dict_append_notin.
Qed.

Fixpoint cyc_entries (icyc : nat) (cycles : list (list nat)) (l : nat * nat) : list (nat * Z) :=
  match cycles with
  | [] => []
  | c :: t => flat_map (side_entry icyc l) (sides c) ++ cyc_entries (S icyc) t l
  end.

Lemma cycle_loop_ok links cycles : NoDup links ->
  forall icyc F, (forall s, In s (flat_map sides cycles) -> In (order_points s) links) ->
  dual_cycle_loop icyc cycles (dict_of links F)
  = Ok (dict_of links (fun l => F l ++ cyc_entries icyc cycles l)).
Proof.
  intros Hn. induction cycles as [|c t IH]; intros icyc F H; cbn [dual_cycle_loop].
  - f_equal. apply dict_of_ext. intros; cbn. now rewrite app_nil_r.
  - rewrite steps_sides, side_loop_ok; auto.
    + cbn [bind]. rewrite IH; [f_equal; apply dict_of_ext; intros; cbn; now rewrite app_assoc|].
      intros s Hs. apply H. cbn. rewrite in_app_iff. auto.
    + intros s Hs. apply H. cbn. rewrite in_app_iff. auto.
Qed.

Lemma cycle_loop_err links cycles : NoDup links ->
  forall icyc F, (exists s, In s (flat_map sides cycles) /\ ~ In (order_points s) links) ->
  dual_cycle_loop icyc cycles (dict_of links F) = Err KeyError.
Proof.
  intros Hn. induction cycles as [|c t IH]; intros icyc F (s & Hs & Hni); [destruct Hs|].
  cbn [dual_cycle_loop]. rewrite steps_sides.
  destruct (Forall_Exists_dec (fun s => In (order_points s) links)
    (fun s => in_dec pair_dec (order_points s) links)
    (sides c)) as [Hf|He].
  - rewrite Forall_forall in Hf. rewrite side_loop_ok by auto. cbn [bind]. apply IH. exists s. split; auto.
    cbn in Hs. rewrite in_app_iff in Hs. destruct Hs as [Hs|]; auto. exfalso; auto.
  - apply Exists_exists in He. rewrite side_loop_err by auto. reflexivity.
Qed.

(** For a link a < b the entries are the uses of the specification. *)
Lemma side_entry_use icyc a b s : a < b -> side_entry icyc (a, b) s = side_use (icyc + 1) a b s.
Proof.
  intros H. destruct s as [x y]. unfold side_entry, side_use, order_points, pair_eqb, sign_nonzero. cbn [fst snd].
  destruct (Nat.leb_spec x y) as [L|L]; cbn [fst snd].
  - destruct (Nat.eqb_spec a x), (Nat.eqb_spec b y), (Nat.eqb_spec x a), (Nat.eqb_spec y b); cbn [andb]; try lia.
    + destruct (Z.ltb_spec 0 (Z.of_nat y - Z.of_nat x)); [auto|lia].
    + destruct (Nat.eqb_spec x b), (Nat.eqb_spec y a); cbn [andb]; auto; lia.
    + destruct (Nat.eqb_spec x b), (Nat.eqb_spec y a); cbn [andb]; auto; lia.
    + destruct (Nat.eqb_spec x b), (Nat.eqb_spec y a); cbn [andb]; auto; lia.
  - replace ((x =? a) && (y =? b)) with false by lia.
    destruct (Nat.eqb_spec a y), (Nat.eqb_spec b x), (Nat.eqb_spec x b), (Nat.eqb_spec y a); cbn [andb]; try lia; auto.
    destruct (Z.ltb_spec 0 (Z.of_nat y - Z.of_nat x)); [lia|auto].
Qed.

Lemma cyc_entries_uses cycles a b : a < b -> forall icyc,
  cyc_entries icyc cycles (a, b) = uses_from (icyc + 1) cycles a b.
Proof.
  intros H. induction cycles as [|c t IH]; intros icyc; [reflexivity|]. cbn [cyc_entries uses_from].
  rewrite IH. f_equal. apply flat_map_ext. intros s. now apply side_entry_use.
Qed.

Lemma order_points_in g x y : simple_links g ->
  In (order_points (x, y)) (g_links g) <-> (In (x, y) (g_links g) \/ In (y, x) (g_links g)).
Proof.
  intros [_ Hlt]. rewrite order_points_spec. split.
  - destruct (Nat.min_spec x y) as [[L E]|[L E]], (Nat.max_spec x y) as [[L' E']|[L' E']];
      rewrite E, E'; intros H; auto; replace y with x in * by lia; auto.
  - intros [H|H]; pose proof (Hlt _ _ H).
    + rewrite Nat.min_l, Nat.max_r by lia. auto.
    + rewrite Nat.min_r, Nat.max_l by lia. auto.
Qed.

Lemma dict_loop_ok g : simple_links g ->
  (forall a b, In (a, b) (all_sides g) -> listed (g_links g) a b) ->
  dual_cycle_loop 0 (g_cycles g) (dict_init (g_links g))
  = Ok (map (fun l => (l, uses g (fst l) (snd l))) (g_links g)).
Proof.
  intros Hs H. destruct (Hs) as [Hn Hlt]. rewrite dict_init_NoDup by auto.
  rewrite cycle_loop_ok; auto.
  - f_equal. apply dict_of_ext. intros [a b] Hl. cbn [app fst snd].
    now rewrite cyc_entries_uses by auto.
  - intros [x y] Hin. apply order_points_in; auto. now apply H.
Qed.

Lemma dict_loop_err g : simple_links g ->
  (exists a b, In (a, b) (all_sides g) /\ ~ listed (g_links g) a b) ->
  dual_cycle_loop 0 (g_cycles g) (dict_init (g_links g)) = Err KeyError.
Proof.
  intros Hs (a & b & Hin & Hni). destruct (Hs) as [Hn Hlt]. rewrite dict_init_NoDup by auto.
  apply cycle_loop_err; auto. exists (a, b). split; auto. now rewrite order_points_in.
Qed.

(** * Rows *)
Definition use_row (vv : list (nat * Z)) : (nat * nat) * (Z * Z) :=
  ((fst (nth 0 vv (0, 0%Z)), fst (nth 1 vv (0, 0%Z))), (snd (nth 0 vv (0, 0%Z)), snd (nth 1 vv (0, 0%Z)))).

Lemma dual_row_ok vv : 1 <= length vv <= 2 -> dual_row vv = Ok (use_row vv).
Proof. destruct vv as [|[? ?] [|[? ?] [|? ?]]]; cbn; intros; auto; lia. Qed.
Lemma dual_row_err vv : ~ 1 <= length vv <= 2 -> dual_row vv = Err ValueError.
Proof. destruct vv as [|[? ?] [|[? ?] [|? ?]]]; cbn; intros; auto; lia. Qed.

Lemma dual_rows_ok links F : (forall l, In l links -> 1 <= length (F l) <= 2) ->
  dual_rows (dict_of links F) = Ok (map (fun l => use_row (F l)) links).
Proof.
  induction links as [|l t IH]; intros H; [reflexivity|]. cbn [dict_of map dual_rows].
  rewrite dual_row_ok by (apply H; now left). cbn [bind]. fold (dict_of t F).
  rewrite IH by (intros; apply H; now right). reflexivity.
Qed.
Lemma dual_rows_err links F : (exists l, In l links /\ ~ 1 <= length (F l) <= 2) ->
  dual_rows (dict_of links F) = Err ValueError.
Proof.
  induction links as [|l t IH]; intros (m & Hm & Hf); [destruct Hm|]. cbn [dict_of map dual_rows].
  destruct (le_dec 1 (length (F l))) as [L1|L1]; [destruct (le_dec (length (F l)) 2) as [L2|L2]|].
  - rewrite dual_row_ok by auto. cbn [bind]. fold (dict_of t F). rewrite IH; [reflexivity|].
    exists m. split; auto. destruct Hm as [<-|]; [lia|auto].
  - rewrite dual_row_err by lia. reflexivity.
  - rewrite dual_row_err by lia. reflexivity.
Qed.

Definition dual_solver (g : graph) : solver :=
  Solver g (map (fun l => fst (use_row (uses g (fst l) (snd l)))) (g_links g))
           (map (fun l => snd (use_row (uses g (fst l) (snd l)))) (g_links g)).

Lemma make_solver_ok g : simple_links g ->
  (forall a b, In (a, b) (all_sides g) -> listed (g_links g) a b) ->
  (forall a b, In (a, b) (g_links g) -> 1 <= length (uses g a b) <= 2) ->
  make_solver g = Ok (dual_solver g).
Proof.
  intros Hs H1 H2. unfold make_solver. rewrite dict_loop_ok by auto. cbn [bind].
  fold (dict_of (g_links g) (fun l => uses g (fst l) (snd l))).
  rewrite dual_rows_ok; [|intros [a b] Hl; now apply H2]. cbn [bind].
  rewrite map_length, Nat.sub_diag. cbn [repeat]. rewrite !app_nil_r, !map_map. reflexivity.
Qed.
Lemma make_solver_key g : simple_links g ->
  (exists a b, In (a, b) (all_sides g) /\ ~ listed (g_links g) a b) ->
  make_solver g = Err KeyError.
Proof. intros Hs H. unfold make_solver. now rewrite dict_loop_err. Qed.
Lemma make_solver_val g : simple_links g ->
  (forall a b, In (a, b) (all_sides g) -> listed (g_links g) a b) ->
  (exists a b, In (a, b) (g_links g) /\ ~ 1 <= length (uses g a b) <= 2) ->
  make_solver g = Err ValueError.
Proof.
  intros Hs H1 (a & b & Hl & H2). unfold make_solver. rewrite dict_loop_ok by auto. cbn [bind].
  fold (dict_of (g_links g) (fun l => uses g (fst l) (snd l))).
  rewrite dual_rows_err; [reflexivity|]. exists (a, b). auto.
Qed.

(** * Uses of a link in a planar graph *)
Lemma side_use_In k a b s c d : a < b -> In (c, d) (side_use k a b s) <->
  c = k /\ ((d = 1%Z /\ s = (a, b)) \/ (d = (-1)%Z /\ s = (b, a))).
Proof.
  intros Hab. destruct s as [x y]. unfold side_use. cbn [fst snd].
  destruct (pair_eqb (x, y) (a, b)) eqn:E1; unfold pair_eqb in E1; cbn [fst snd] in E1; rewrite E1.
  - apply andb_true_iff in E1 as [E1 E2]. apply Nat.eqb_eq in E1, E2. subst. cbn. split.
    + intros [H|[]]. injection H as <- <-. auto.
    + intros (-> & [[-> _]|[_ H]]); auto. injection H. lia.
  - destruct (pair_eqb (x, y) (b, a)) eqn:E2; unfold pair_eqb in E2; cbn [fst snd] in E2; rewrite E2.
    + apply andb_true_iff in E2 as [E2 E3]. apply Nat.eqb_eq in E2, E3. subst. cbn. split.
      * intros [H|[]]. injection H as <- <-. auto.
      * intros (-> & [[_ H]|[-> _]]); auto. injection H. lia.
    + split; [intros []|]. intros (-> & [[_ H]|[_ H]]); injection H as -> ->;
        rewrite !Nat.eqb_refl in *; discriminate.
Qed.

Lemma uses_from_In cycles a b : forall k c d, a < b -> In (c, d) (uses_from k cycles a b) <->
  exists n, n < length cycles /\ c = n + k /\
    ((d = 1%Z /\ In (a, b) (sides (nth n cycles []))) \/ (d = (-1)%Z /\ In (b, a) (sides (nth n cycles [])))).
Proof.
  induction cycles as [|cy t IH]; intros k c d Hab; cbn [uses_from length].
  - split; [intros []|intros (n & Hn & _); lia].
  - rewrite in_app_iff, IH, in_flat_map by auto. split.
    + intros [([x y] & Hs & H)|(n & Hn & -> & H)].
      * exists 0. split; [lia|]. apply side_use_In in H as (-> & H); auto. split; [lia|].
        destruct H as [[-> E]|[-> E]]; rewrite E in Hs; auto.
      * exists (S n). split; [lia|]. split; [lia|]. exact H.
    + intros ([|n] & Hn & -> & H).
      * left. cbn [nth] in H. destruct H as [[-> H]|[-> H]].
        -- exists (a, b). split; auto. unfold side_use. cbn [fst snd]. rewrite !Nat.eqb_refl. now left.
        -- exists (b, a). split; auto. unfold side_use. cbn [fst snd].
           replace ((b =? a) && (a =? b)) with false by lia. rewrite !Nat.eqb_refl. now left.
      * right. exists n. split; [lia|]. split; [lia|]. exact H.
Qed.

Lemma uses_In g a b c d : a < b -> In (c, d) (uses g a b) <->
  exists n, n < length (g_cycles g) /\ c = n + 1 /\
    ((d = 1%Z /\ In (a, b) (sides (nth n (g_cycles g) []))) \/ (d = (-1)%Z /\ In (b, a) (sides (nth n (g_cycles g) [])))).
Proof. intros. unfold uses. now rewrite uses_from_In. Qed.

(** Each direction occurs as often as it is traversed. *)
Lemma uses_dir_count k cycles a b d : a < b ->
  count_occ Z.eq_dec (map snd (uses_from k cycles a b)) d =
  if Z.eq_dec d 1 then length (filter (fun s => pair_eqb s (a, b)) (flat_map sides cycles))
  else if Z.eq_dec d (-1) then length (filter (fun s => pair_eqb s (b, a)) (flat_map sides cycles))
  else 0.
Proof.
  intros Hab. revert k. induction cycles as [|c t IH]; intros k.
  - cbn. destruct (Z.eq_dec d 1), (Z.eq_dec d (-1)); auto.
  - cbn [uses_from flat_map]. rewrite map_app, count_occ_app, IH, !filter_app, !app_length. clear IH.
    enough (count_occ Z.eq_dec (map snd (flat_map (side_use k a b) (sides c))) d
      = if Z.eq_dec d 1 then length (filter (fun s => pair_eqb s (a, b)) (sides c))
        else if Z.eq_dec d (-1) then length (filter (fun s => pair_eqb s (b, a)) (sides c)) else 0) as ->
      by (destruct (Z.eq_dec d 1), (Z.eq_dec d (-1)); lia).
    induction (sides c) as [|[x y] l IH].
    + cbn. destruct (Z.eq_dec d 1), (Z.eq_dec d (-1)); auto.
    + cbn [flat_map]. rewrite map_app, count_occ_app, IH. clear IH. cbn [filter]. unfold side_use, pair_eqb. cbn [fst snd].
      destruct (Nat.eqb_spec x a), (Nat.eqb_spec y b); cbn [andb]; subst.
      all: destruct (Nat.eqb_spec a b), (Nat.eqb_spec b a); try lia; cbn [andb].
      all: try destruct (Nat.eqb_spec x b); try destruct (Nat.eqb_spec y a); subst; cbn [andb map snd count_occ].
      all: destruct (Z.eq_dec d 1), (Z.eq_dec d (-1)); subst; try lia; cbn [length app Nat.add]; try lia.
      all: repeat match goal with |- context[Z.eq_dec ?u ?v] => destruct (Z.eq_dec u v); try lia end.
Qed.
