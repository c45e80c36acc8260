(** Lemmas on names, windows and masks for Props_Slc.v. *)
From Coq Require Import ZifyBool.
From Verif Require Import Base BaseLemmas TileModel NamesModel SlcModel SlcSpec.
From Coq Require Import List.
Import ListNotations.
Set Default Goal Selector "!".

(** * Strings *)
Local Open Scope string_scope.

Lemma string_app_nil s : s ++ "" = s.
Proof. induction s as [|c s IH]; [reflexivity|]. cbn. rewrite IH. reflexivity. Qed.

Lemma string_app_assoc a b c : (a ++ b) ++ c = a ++ b ++ c.
Proof. induction a as [|x a IH]; [reflexivity|]. cbn. rewrite IH. reflexivity. Qed.

Lemma nat_ascii_inj x y : nat_of_ascii x = nat_of_ascii y -> x = y.
Proof.
  intros H. rewrite <- (ascii_nat_embedding x), <- (ascii_nat_embedding y), H. reflexivity.
Qed.

Lemma compare_ascii x y :
  match Ascii.compare x y with
  | Lt => (nat_of_ascii x < nat_of_ascii y)%nat
  | Eq => x = y
  | Gt => (nat_of_ascii y < nat_of_ascii x)%nat
  end.
Proof.
  unfold Ascii.compare, nat_of_ascii.
  destruct (N.compare_spec (N_of_ascii x) (N_of_ascii y)) as [H|H|H]; [|lia|lia].
  rewrite <- (ascii_N_embedding x), <- (ascii_N_embedding y), H. reflexivity.
Qed.

Lemma leb_str_le a b : String.leb a b = true <-> str_le a b.
Proof.
  revert b. induction a as [|x a IH]; intros [|y b]; cbn [str_le].
  - unfold String.leb. cbn. tauto.
  - unfold String.leb. cbn. tauto.
  - unfold String.leb. cbn. intuition discriminate.
  - specialize (IH b). unfold String.leb in *. cbn [String.compare].
    pose proof (compare_ascii x y) as Hc. destruct (Ascii.compare x y).
    + subst y. rewrite IH. intuition lia.
    + intuition.
    + split; [discriminate|]. intros [H|[-> _]]; lia.
Qed.

Lemma str_le_refl a : str_le a a.
Proof. induction a; cbn [str_le]; auto. Qed.

Lemma str_le_trans a b c : str_le a b -> str_le b c -> str_le a c.
Proof.
  revert b c. induction a as [|x a IH]; intros [|y b] [|z c]; cbn [str_le]; try tauto.
  intros [H1|[-> H1]] [H2|[-> H2]]; [left; lia|auto|auto|right; eauto].
Qed.

Lemma str_le_antisym a b : str_le a b -> str_le b a -> a = b.
Proof.
  revert b. induction a as [|x a IH]; intros [|y b]; cbn [str_le]; try tauto.
  intros [H1|[-> H1]] [H2|[H H2]]; try lia; [subst; lia|]. f_equal. apply IH; assumption.
Qed.

Lemma str_le_total a b : str_le a b \/ str_le b a.
Proof. rewrite <- !leb_str_le. apply String.leb_total. Qed.

Lemma insert_str_perm x l : Permutation (insert_str x l) (x :: l).
Proof.
  induction l as [|y l IH]; cbn [insert_str]; [reflexivity|].
  destruct (String.leb x y); [reflexivity|]. rewrite IH. apply perm_swap.
Qed.

Lemma sort_str_perm l : Permutation (sort_str l) l.
Proof.
  induction l as [|x l IH]; [reflexivity|]. cbn [sort_str fold_right].
  rewrite insert_str_perm. apply perm_skip, IH.
Qed.

Lemma insert_str_sorted x l : StronglySorted str_le l -> StronglySorted str_le (insert_str x l).
Proof.
  induction 1 as [|y l Hs IH Hf]; cbn [insert_str]; [repeat constructor|].
  destruct (String.leb x y) eqn:E.
  - apply leb_str_le in E. constructor; [constructor; assumption|]. constructor; [exact E|].
    eapply Forall_impl; [|exact Hf]. intros z Hz. eapply str_le_trans; eassumption.
  - assert (L : str_le y x).
    { destruct (str_le_total x y) as [C|C]; [apply leb_str_le in C; congruence | exact C]. }
    constructor; [exact IH|]. apply Forall_forall. intros z Hz.
    apply (Permutation_in z (insert_str_perm x l)) in Hz as [<-|Hz]; [exact L|].
    eapply Forall_forall in Hf; [exact Hf | exact Hz].
Qed.

Lemma sort_str_sorted l : StronglySorted str_le (sort_str l).
Proof. induction l as [|x l IH]; [constructor|]. apply insert_str_sorted, IH. Qed.

Lemma ends_with_spec suffix s : ends_with suffix s = true <-> has_suffix suffix s.
Proof.
  induction s as [|c s IH]; cbn [ends_with]; rewrite orb_true_iff, String.eqb_eq.
  - unfold has_suffix. split.
    + intros [<-|H]; [exists ""; reflexivity|discriminate].
    + intros [[|c p] H]; cbn in H; [left; exact H|discriminate].
  - rewrite IH. unfold has_suffix. split.
    + intros [<-|[p ->]]; [exists ""; reflexivity|exists (String c p); reflexivity].
    + intros [[|c' p] H]; cbn in H; [left; exact H|].
      injection H as -> ->. right. exists p. reflexivity.
Qed.

(** ** Fields *)
Lemma split_us_spec s : let '(h, r) := split_us s in
  no_us h /\ match r with
             | [] => s = h
             | f :: r' => exists t, s = h ++ "_" ++ t /\ split_us t = (f, r')
             end.
Proof.
  induction s as [|c s IH]; cbn [split_us]; [split; [exact I|reflexivity]|].
  destruct (split_us s) as [h r] eqn:E. destruct IH as [N H].
  destruct (Ascii.eqb c "_") eqn:Ec.
  - apply Ascii.eqb_eq in Ec as ->. split; [exact I|]. exists s. split; [reflexivity|exact E].
  - apply Ascii.eqb_neq in Ec. split; [split; assumption|]. destruct r as [|f r'].
    + rewrite H. reflexivity.
    + destruct H as (t & -> & Et). exists t. split; [reflexivity|exact Et].
Qed.

Lemma py_split_hd s : field0 s (hd "" (py_split s)).
Proof.
  unfold py_split. pose proof (split_us_spec s) as H. destruct (split_us s) as [h r].
  cbn [hd]. destruct H as [N H]. split; [exact N|]. destruct r as [|f r']; [left; exact H|].
  right. destruct H as (t & E & _). exists t. exact E.
Qed.

Lemma py_split_second s : match py_split s with
  | _ :: f :: _ => field1 s f
  | _ => forall f, ~ field1 s f
  end.
Proof.
  unfold py_split. pose proof (split_us_spec s) as H. destruct (split_us s) as [h r].
  destruct H as [N H]. destruct r as [|f r'].
  - subst s. intros f (a & rest & _ & E & _). clear -N E. revert a E.
    induction h as [|c h IH]; intros [|c' a] E; cbn in E.
    + discriminate.
    + discriminate.
    + injection E as -> _. destruct N as [N _]. congruence.
    + injection E as -> E. destruct N as [_ N]. eapply IH; eassumption.
  - destruct H as (t & E & Et). exists h, t. split; [exact N|]. split; [exact E|].
    pose proof (py_split_hd t) as F. unfold py_split in F. rewrite Et in F. exact F.
Qed.

Lemma app_us_inj a a' x x' : no_us a -> no_us a' -> a ++ "_" ++ x = a' ++ "_" ++ x' -> a = a' /\ x = x'.
Proof.
  revert a'. induction a as [|c a IH]; intros [|c' a'] N N' E; cbn in E.
  - injection E as ->. split; reflexivity.
  - injection E as <- _. destruct N' as [N' _]. congruence.
  - injection E as -> _. destruct N as [N _]. congruence.
  - injection E as -> E. destruct N as [_ N], N' as [_ N'].
    destruct (IH a' N N' E) as [-> ->]. split; reflexivity.
Qed.

Lemma no_us_app a x : no_us (a ++ "_" ++ x) -> False.
Proof. induction a as [|c a IH]; cbn; intros [H1 H2]; [congruence|]. apply IH, H2. Qed.

Lemma field0_unique s a a' : field0 s a -> field0 s a' -> a = a'.
Proof.
  intros [N H] [N' H']. destruct H as [->|[r ->]], H' as [H'|[r' H']].
  - exact H'.
  - exfalso. subst. apply no_us_app in N. exact N.
  - exfalso. subst. apply no_us_app in N'. exact N'.
  - apply app_us_inj in H' as [-> _]; [reflexivity|assumption|assumption].
Qed.

Lemma field1_unique s b b' : field1 s b -> field1 s b' -> b = b'.
Proof.
  intros (a & r & N & -> & F) (a' & r' & N' & E & F').
  apply app_us_inj in E as [_ ->]; [|assumption|assumption]. eapply field0_unique; eassumption.
Qed.

Lemma substring_length n s : String.length (substring 0 n s) = Nat.min n (String.length s).
Proof.
  revert s. induction n as [|n IH]; intros [|c s]; cbn [substring String.length]; try reflexivity.
  rewrite IH. reflexivity.
Qed.

Lemma substring_split n s : exists rest, s = substring 0 n s ++ rest.
Proof.
  revert s. induction n as [|n IH]; intros [|c s]; cbn [substring].
  - exists "". reflexivity.
  - exists (String c s). reflexivity.
  - exists "". reflexivity.
  - destruct (IH s) as [r Hr]. exists r. cbn. rewrite <- Hr. reflexivity.
Qed.

Lemma first8_starts s : starts8 s (first8 s).
Proof.
  unfold starts8, first8. destruct (Nat.le_gt_cases (String.length s) 8) as [L|L].
  - left. split; [exact L|]. destruct (substring_split 8 s) as [r Hr].
    assert (String.length r = 0)%nat.
    { apply (f_equal String.length) in Hr.
      assert (A : forall a b, String.length (a ++ b) = (String.length a + String.length b)%nat).
      { induction a as [|c a IHa]; intros b; [reflexivity|]. cbn. rewrite IHa. reflexivity. }
      rewrite A, substring_length in Hr. lia. }
    destruct r; [|discriminate]. rewrite string_app_nil in Hr. symmetry. exact Hr.
  - right. split; [rewrite substring_length; lia|]. apply substring_split.
Qed.

Lemma starts8_unique s d d' : starts8 s d -> starts8 s d' -> d = d'.
Proof.
  assert (A : forall a b, String.length (a ++ b) = (String.length a + String.length b)%nat).
  { induction a as [|c a IHa]; intros b; [reflexivity|]. cbn. rewrite IHa. reflexivity. }
  assert (Z0 : forall r, String.length r = 0%nat -> r = "") by (intros [|c r]; [reflexivity|discriminate]).
  assert (P : forall a b r r', String.length a = String.length b -> a ++ r = b ++ r' -> a = b).
  { induction a as [|x a IHa]; intros [|y b] r r' L E; cbn in *; try discriminate; [reflexivity|].
    injection E as -> E. f_equal. eapply IHa; [|exact E]. congruence. }
  intros [[L ->]|[L [r ->]]] [[L' ->]|[L' [r' E']]].
  - reflexivity.
  - subst s. rewrite A in L. rewrite (Z0 r') by lia. rewrite string_app_nil. reflexivity.
  - rewrite A in L'. rewrite (Z0 r) by lia. rewrite string_app_nil. reflexivity.
  - eapply P; [|exact E']. congruence.
Qed.

Lemma second_date_unique s d d' : second_date s d -> second_date s d' -> d = d'.
Proof.
  intros (b & F & S) (b' & F' & S'). pose proof (field1_unique _ _ _ F F') as <-.
  eapply starts8_unique; eassumption.
Qed.
Lemma first_date_unique s d d' : first_date s d -> first_date s d' -> d = d'.
Proof.
  intros (b & F & S) (b' & F' & S'). pose proof (field0_unique _ _ _ F F') as <-.
  eapply starts8_unique; eassumption.
Qed.

(** ** Dicts *)
Lemma dict_has_spec k d : dict_has k d = true <-> In k (map fst d).
Proof.
  unfold dict_has. rewrite existsb_exists. split.
  - intros (x & H & E). apply String.eqb_eq in E as ->. exact H.
  - intros H. exists k. split; [exact H | apply String.eqb_refl].
Qed.

Lemma dict_get_nodup d k v : NoDup (map fst d) -> (dict_get k d = Some v <-> In (k, v) d).
Proof.
  induction d as [|[k' v'] d IH]; intros N; cbn [dict_get In]; [split; [discriminate|tauto]|].
  cbn [map fst] in N. inversion N as [|? ? N1 N2]; subst.
  destruct (String.eqb k' k) eqn:E.
  - apply String.eqb_eq in E as ->. split.
    + intros [= ->]. left. reflexivity.
    + intros [[= ->]|H]; [reflexivity|]. exfalso. apply N1. apply (in_map fst) in H. exact H.
  - apply String.eqb_neq in E. rewrite (IH N2). split; [auto|].
    intros [[= -> ->]|H]; [congruence|exact H].
Qed.

Lemma dict_get_none d k : dict_get k d = None <-> ~ In k (map fst d).
Proof.
  induction d as [|[k' v'] d IH]; cbn [dict_get map fst In]; [tauto|].
  destruct (String.eqb k' k) eqn:E.
  - apply String.eqb_eq in E as ->. split; [discriminate|tauto].
  - apply String.eqb_neq in E. rewrite IH. tauto.
Qed.

(** * Windows and masks *)
Local Open Scope nat_scope.

Lemma nth_error_firstn {A} (l : list A) n i : nth_error (firstn n l) i = if i <? n then nth_error l i else None.
Proof.
  revert n i. induction l as [|x l IH]; intros [|n] [|i]; try reflexivity.
  - cbn [firstn nth_error]. destruct (S i <? S n); reflexivity.
  - cbn [firstn nth_error]. rewrite IH. reflexivity.
Qed.

Lemma nth_error_skipn {A} (l : list A) n i : nth_error (skipn n l) i = nth_error l (n + i).
Proof.
  revert n. induction l as [|x l IH]; intros [|n]; try reflexivity.
  - cbn [skipn]. destruct i; reflexivity.
  - cbn [skipn Nat.add nth_error]. apply IH.
Qed.

Lemma read_window_at {A} (img : list (list A)) b i j :
  pixel_at (read_window img b) i j
  = if (i <? Z.to_nat (xmax b - xmin b)) && (j <? Z.to_nat (ymax b - ymin b))
    then pixel_at img (Z.to_nat (xmin b) + i) (Z.to_nat (ymin b) + j) else None.
Proof.
  unfold pixel_at, read_window. rewrite nth_error_map, nth_error_firstn, nth_error_skipn.
  destruct (i <? Z.to_nat (xmax b - xmin b)); [|reflexivity]. cbn [andb].
  destruct (nth_error img (Z.to_nat (xmin b) + i)) as [row|]; cbn [option_map];
    [|destruct (j <? _); reflexivity].
  rewrite nth_error_firstn, nth_error_skipn. reflexivity.
Qed.

Lemma pixel_at_map {A B} (f : A -> B) img i j :
  pixel_at (map (map f) img) i j = option_map f (pixel_at img i j).
Proof.
  unfold pixel_at. rewrite nth_error_map. destruct (nth_error img i) as [row|]; [|reflexivity].
  cbn [option_map]. apply nth_error_map.
Qed.

Lemma nth_error_nth_iff {A} (l : list A) i d x : nth_error l i = Some x <-> i < length l /\ nth i l d = x.
Proof.
  split.
  - intros H. split; [apply nth_error_Some; congruence | apply nth_error_nth, H].
  - intros [H <-]. apply nth_error_nth', H.
Qed.

Lemma nonzero_iff arr i j : In (Z.of_nat i, Z.of_nat j) (nonzero arr) <-> pixel_at arr i j = Some true.
Proof.
  unfold nonzero, pixel_at. rewrite in_flat_map. split.
  - intros (i' & Hi & H). apply in_map_iff in H as (j' & E & H). injection E as E1 E2.
    assert (i' = i) as -> by lia. assert (j' = j) as -> by lia.
    apply filter_In in H as [Hj H]. apply in_seq in Hi, Hj.
    rewrite (nth_error_nth' arr []) by lia. apply (nth_error_nth_iff _ _ false). split; [lia|exact H].
  - destruct (nth_error arr i) as [row|] eqn:E; [|discriminate]. intros H.
    apply (nth_error_nth_iff _ _ []) in E as [L E]. apply (nth_error_nth_iff _ _ false) in H as [L' H].
    exists i. split; [apply in_seq; lia|]. apply in_map_iff. exists j. split; [reflexivity|].
    rewrite E. apply filter_In. split; [apply in_seq; lia|exact H].
Qed.

Lemma nonzero_form arr p : In p (nonzero arr) -> exists i j, p = (Z.of_nat i, Z.of_nat j).
Proof.
  unfold nonzero. rewrite in_flat_map. intros (i & _ & H). apply in_map_iff in H as (j & <- & _). eauto.
Qed.

Lemma sorted_app {A} (R : A -> A -> Prop) l1 l2 :
  StronglySorted R l1 -> StronglySorted R l2 -> (forall x y, In x l1 -> In y l2 -> R x y) ->
  StronglySorted R (l1 ++ l2).
Proof.
  induction 1 as [|a l Hs IH Hf]; intros H2 H; [exact H2|]. cbn [app]. constructor.
  - apply IH; [exact H2|]. intros x y Hx Hy. apply H; [right; exact Hx|exact Hy].
  - apply Forall_app. split; [exact Hf|]. apply Forall_forall. intros y Hy. apply H; [left; reflexivity|exact Hy].
Qed.

Lemma seq_sorted s n : StronglySorted lt (seq s n).
Proof.
  revert s. induction n as [|n IH]; intros s; cbn [seq]; constructor; [apply IH|].
  apply Forall_forall. intros x Hx. apply in_seq in Hx. lia.
Qed.

Lemma filter_sorted {A} (R : A -> A -> Prop) f l : StronglySorted R l -> StronglySorted R (filter f l).
Proof.
  induction 1 as [|a l Hs IH Hf]; cbn [filter]; [constructor|].
  destruct (f a); [|exact IH]. constructor; [exact IH|].
  apply Forall_forall. intros x Hx. apply filter_In in Hx as [Hx _]. eapply Forall_forall in Hf; eassumption.
Qed.

Lemma map_sorted {A B} (R : A -> A -> Prop) (S : B -> B -> Prop) f l :
  (forall x y, R x y -> S (f x) (f y)) -> StronglySorted R l -> StronglySorted S (map f l).
Proof.
  intros H. induction 1 as [|a l Hs IH Hf]; cbn [map]; constructor; [exact IH|].
  apply Forall_forall. intros y Hy. apply in_map_iff in Hy as (x & <- & Hx). apply H.
  eapply Forall_forall in Hf; eassumption.
Qed.

Lemma nonzero_sorted arr : StronglySorted before (nonzero arr).
Proof.
  unfold nonzero. set (f := fun i : nat => _).
  assert (G : forall n s, StronglySorted before (flat_map f (seq s n))); [|apply G].
  induction n as [|n IH]; intros s; [constructor|].
  cbn [seq flat_map]. apply sorted_app.
  - eapply map_sorted; [|apply filter_sorted, seq_sorted]. intros x y H. right. cbn [fst snd]. lia.
  - apply IH.
  - intros x y Hx Hy. unfold f in *. apply in_map_iff in Hx as (j & <- & _).
    apply in_flat_map in Hy as (i' & Hi & Hy). apply in_map_iff in Hy as (j' & <- & _).
    apply in_seq in Hi. left. cbn [fst]. lia.
Qed.

Lemma sorted_nodup {A} (R : A -> A -> Prop) l : (forall x, ~ R x x) -> StronglySorted R l -> NoDup l.
Proof.
  intros H. induction 1 as [|a l Hs IH Hf]; constructor; [|exact IH].
  intros Ha. eapply Forall_forall in Hf; [|exact Ha]. apply (H a Hf).
Qed.

Lemma nonzero_nodup arr : NoDup (nonzero arr).
Proof. apply (sorted_nodup before); [|apply nonzero_sorted]. intros x. unfold before. lia. Qed.

(** Two lists sorted by the same strict order with the same members are equal. *)
Lemma sorted_unique {A} (R : A -> A -> Prop) l l' :
  (forall x, ~ R x x) -> (forall x y z, R x y -> R y z -> R x z) ->
  StronglySorted R l -> StronglySorted R l' -> (forall x, In x l <-> In x l') -> l = l'.
Proof.
  intros Irr Tr S. revert l'. induction S as [|a l Hs IH Hf]; intros l' S' H.
  - destruct l' as [|b l']; [reflexivity|]. exfalso. apply (H b). left. reflexivity.
  - inversion S' as [|b m Hs' Hf']; subst.
    + exfalso. apply (H a). left. reflexivity.
    + assert (a = b).
      { destruct (proj1 (H a) (or_introl eq_refl)) as [E|E]; [congruence|].
        destruct (proj2 (H b) (or_introl eq_refl)) as [E'|E']; [congruence|].
        eapply Forall_forall in Hf; [|exact E']. eapply Forall_forall in Hf'; [|exact E].
        exfalso. apply (Irr a). eapply Tr; eassumption. }
      subst b. f_equal. apply IH; [exact Hs'|]. intros x. split; intros Hx.
      * destruct (proj1 (H x) (or_intror Hx)) as [<-|E]; [|exact E].
        exfalso. eapply Forall_forall in Hf; [|exact Hx]. apply (Irr a Hf).
      * destruct (proj2 (H x) (or_intror Hx)) as [<-|E]; [|exact E].
        exfalso. eapply Forall_forall in Hf'; [|exact Hx]. apply (Irr a Hf').
Qed.

Lemma nth_ext_len {A} (l l' : list A) d :
  length l = length l' -> (forall i, i < length l -> nth i l d = nth i l' d) -> l = l'.
Proof. intros L H. apply (nth_ext l l' d d L H). Qed.

Section Select.
  Context {A : Type} (d : A).

  Lemma combine_seq {B} (l : list A) (m : list B) dm : length l = length m ->
    combine l m = map (fun i => (nth i l d, nth i m dm)) (seq 0 (length m)).
  Proof.
    intros L. apply nth_ext_len with (d := (d, dm)).
    - rewrite combine_length, map_length, seq_length. lia.
    - intros i Hi. rewrite combine_length in Hi. rewrite combine_nth by exact L.
      rewrite (map_nth' _ _ i 0) by (rewrite seq_length; lia). rewrite seq_nth by lia. reflexivity.
  Qed.

  Lemma filter_map_comm {B D} (f : B -> bool) (g : D -> B) l :
    filter f (map g l) = map g (filter (fun x => f (g x)) l).
  Proof.
    induction l as [|x l IH]; [reflexivity|]. cbn [map filter]. destruct (f (g x)); cbn [map]; rewrite IH; reflexivity.
  Qed.

  Lemma select_row (row : list A) (m : list bool) : length row = length m ->
    map fst (filter snd (combine row m)) = map (fun j => nth j row d) (filter (fun j => nth j m false) (seq 0 (length m))).
  Proof.
    intros L. rewrite (combine_seq row m false L), filter_map_comm, map_map. reflexivity.
  Qed.

  Lemma same_shape_spec {B} (a : list (list A)) (b : list (list B)) :
    same_shape a b = true <-> same_grid a b.
  Proof.
    unfold same_shape, same_grid. revert b. induction a as [|x a IH]; intros [|y b]; cbn; try (intuition discriminate).
    specialize (IH b). rewrite andb_true_iff in IH.
    rewrite !andb_true_iff, !Nat.eqb_eq in *. split.
    - intros (E1 & E2 & E3). f_equal; [exact E2|]. apply IH. auto.
    - intros E. injection E as E1 E2. apply IH in E2. tauto.
  Qed.

  Lemma select_spec (img : list (list A)) msk l : select img msk = Ok l ->
    same_grid img msk /\
    l = map (fun p => nth (Z.to_nat (snd p)) (nth (Z.to_nat (fst p)) img []) d) (nonzero msk).
  Proof.
    unfold select. destruct (same_shape img msk) eqn:S; [|discriminate]. intros [= <-].
    apply same_shape_spec in S. split; [exact S|].
    assert (L : length img = length msk).
    { apply (f_equal (@length nat)) in S. rewrite !map_length in S. exact S. }
    assert (Lr : forall i, length (nth i img []) = length (nth i msk [])).
    { intros i. change (@length A (nth i img [])) with (length (nth i img [])).
      rewrite <- (map_nth (@length A)), <- (map_nth (@length bool)). f_equal. exact S. }
    assert (E : combine img msk = map (fun i => (nth i img [], nth i msk [])) (seq 0 (length msk))).
    { apply nth_ext_len with (d := ([], [])).
      - rewrite combine_length, map_length, seq_length. lia.
      - intros i Hi. rewrite combine_length in Hi. rewrite combine_nth by exact L.
        rewrite (map_nth' _ _ i 0) by (rewrite seq_length; lia). rewrite seq_nth by lia. reflexivity. }
    rewrite E. unfold nonzero. rewrite !flat_map_concat_map, map_map, concat_map, map_map.
    f_equal. apply map_ext. intros i. cbn [fst snd]. rewrite select_row by apply Lr.
    rewrite map_map. apply map_ext. intros j. cbn [fst snd]. rewrite !Nat2Z.id. reflexivity.
  Qed.

  Lemma select_total (img : list (list A)) msk : same_grid img msk -> exists l, select img msk = Ok l.
  Proof. intros H. unfold select. rewrite (proj2 (same_shape_spec img msk) H). eauto. Qed.
End Select.

Lemma same_grid_window {A B} (a : list (list A)) (b : list (list B)) w :
  same_grid a b -> same_grid (read_window a w) (read_window b w).
Proof.
  unfold same_grid, read_window. intros H. rewrite !map_map.
  assert (E : forall X (n m k l : nat) (img : list (list X)),
    map (fun row => length (firstn n (skipn m row))) (firstn k (skipn l img))
    = map (fun len => Nat.min n (len - m)) (firstn k (skipn l (map (@length X) img)))).
  { intros X n m k l img. rewrite skipn_map, firstn_map, map_map. apply map_ext. intros row.
    rewrite firstn_length, skipn_length. reflexivity. }
  rewrite !E, H. reflexivity.
Qed.

Lemma same_grid_map {A B C} (f : B -> C) (a : list (list A)) (b : list (list B)) :
  same_grid a b -> same_grid a (map (map f) b).
Proof.
  unfold same_grid. intros ->. rewrite map_map. apply map_ext. intros row. rewrite map_length. reflexivity.
Qed.

Lemma above_spec thr x : above thr x = true <-> exists q, x = Some q /\ (thr < q)%Q.
Proof.
  destruct x as [q|]; cbn [above]; [|split; [discriminate|intros (q & H & _); discriminate]].
  rewrite negb_true_iff. split.
  - intros H. exists q. split; [reflexivity|]. apply Qnot_le_lt. intros C. apply Qle_bool_iff in C. congruence.
  - intros (q' & [= <-] & H). destruct (Qle_bool q thr) eqn:E; [|reflexivity].
    apply Qle_bool_iff in E. lra.
Qed.

Lemma map_res_spec {A B} (f : A -> res B) l r : map_res f l = Ok r <->
  Forall2 (fun a b => f a = Ok b) l r.
Proof.
  revert r. induction l as [|a l IH]; intros r; cbn [map_res].
  - split; [intros [= <-]; constructor|]. intros H. inversion H. reflexivity.
  - split.
    + destruct (f a) as [b|] eqn:E; cbn [bind]; [|discriminate].
      destruct (map_res f l) as [bs|] eqn:E2; cbn [bind]; [|discriminate].
      intros [= <-]. constructor; [exact E|]. apply IH. reflexivity.
    + intros H. inversion H as [|? b ? bs H1 H2]; subst. rewrite H1. cbn [bind].
      apply IH in H2. rewrite H2. reflexivity.
Qed.

Lemma map_res_total {A B} (f : A -> res B) l : (forall a, In a l -> exists b, f a = Ok b) ->
  exists r, map_res f l = Ok r.
Proof.
  induction l as [|a l IH]; intros H; cbn [map_res]; [eauto|].
  destruct (H a (or_introl eq_refl)) as [b ->]. cbn [bind].
  destruct IH as [r ->]; [intros x Hx; apply H; right; exact Hx|]. cbn [bind]. eauto.
Qed.
