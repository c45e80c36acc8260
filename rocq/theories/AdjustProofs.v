(** The adjustment of overlapping tiles. *)
From Verif Require Import Base BaseLemmas PoolProofs GraphModel TileModel OverlapModel BulkModel BulkProofs
  DirichletModel DirichletSpec DirichletProofs MergeModel MergeSpec TileStateProofs.
From Coq Require Import List ZifyBool Lqa Permutation.
Import ListNotations.
Set Default Goal Selector "!".
Local Open Scope Q_scope.

(** ** Lists *)
Lemma fold_res_app {A B} (step : A -> B -> res A) l l' : forall a,
  fold_res step a (l ++ l') = do a' <- fold_res step a l; fold_res step a' l'.
Proof. induction l as [|b l IH]; intros a; [reflexivity|]. cbn. destruct (step a b); [apply IH|reflexivity]. Qed.

Lemma filter_perm {A} (p : A -> bool) l l' : Permutation l l' -> Permutation (filter p l) (filter p l').
Proof.
  induction 1; cbn; auto.
  - destruct (p x); auto.
  - destruct (p x), (p y); auto. apply perm_swap.
  - eapply perm_trans; eauto.
Qed.

Lemma filter_none {A} (p : A -> bool) l : (forall x, In x l -> p x = false) -> filter p l = [].
Proof. induction l as [|a l IH]; intros H; [auto|]. cbn. rewrite H by now left. apply IH. intros x I. apply H. now right. Qed.

Lemma combine_swap {A B} (l : list A) : forall (l' : list B) a b, In (a, b) (combine l l') <-> In (b, a) (combine l' l).
Proof.
  induction l as [|x l IH]; intros [|y l'] a b; cbn; try tauto. rewrite IH. split; (intros [E|E]; [left; congruence|now right]).
Qed.

Section Scatter.
  Context {A : Type} (add : A -> A -> A) (d : A).
  Lemma scatter_fold x l : forall acc, length acc = length x -> NoDup (map fst l) ->
    let r := fold_left (fun acc iv => upd acc (fst iv) (add (nth (fst iv) x d) (snd iv))) l acc in
    length r = length x /\
    (forall p, ~ In p (map fst l) -> nth p r d = nth p acc d) /\
    (forall p v, (p < length x)%nat -> In (p, v) l -> nth p r d = add (nth p x d) v).
  Proof.
    induction l as [|[i v] l IH]; intros acc L N; cbv zeta; cbn [fold_left map fst snd].
    - split; [auto|]. split; [auto|]. intros p v _ [].
    - inversion N as [|? ? N1 N2]; subst. set (acc' := upd acc i _). destruct (IH acc') as (R1 & R2 & R3); [unfold acc'; now rewrite upd_length|auto|].
      split; [exact R1|]. split.
      + intros p Hp. cbn in Hp. rewrite R2 by tauto. unfold acc'. rewrite nth_upd_neq by (intros E; tauto). reflexivity.
      + intros p w Hp [E|I].
        * assert (i = p /\ v = w) as [-> ->] by (split; congruence). rewrite R2 by exact N1. unfold acc'. apply nth_upd_eq. lia.
        * now apply R3.
  Qed.

  Lemma scatter_add_spec x idx vals : NoDup idx -> length idx = length vals ->
    let r := scatter_add add d x idx vals in
    length r = length x /\
    (forall p, ~ In p idx -> nth p r d = nth p x d) /\
    (forall p v, (p < length x)%nat -> In (p, v) (combine idx vals) -> nth p r d = add (nth p x d) v).
  Proof.
    intros N L. cbv zeta. unfold scatter_add.
    assert (map fst (combine idx vals) = idx) as E.
    { clear N. revert vals L. induction idx as [|i idx IH]; intros [|v vals] L; try discriminate; [auto|]. cbn. f_equal. apply IH. cbn in L; lia. }
    destruct (scatter_fold x (combine idx vals) x eq_refl) as (R1 & R2 & R3); [now rewrite E|].
    rewrite E in R2. auto.
  Qed.
End Scatter.

(** ** Points *)
Lemma point_eqb_spec p q : point_eqb p q = true <-> p = q.
Proof. unfold point_eqb. destruct p, q; cbn. rewrite andb_true_iff, !Z.eqb_eq. split; [intros [-> ->]; auto|]. intros [= -> ->]; auto. Qed.

Lemma point_eqb_refl p : point_eqb p p = true.
Proof. now apply point_eqb_spec. Qed.

Lemma contains_spec t x : contains t x = true <-> exists p, point_of t x p.
Proof.
  unfold contains, point_of. rewrite existsb_exists. split.
  - intros (y & I & E). apply point_eqb_spec in E as <-. now apply In_nth_error.
  - intros (p & E). exists x. split; [eapply nth_error_In; eauto|apply point_eqb_refl].
Qed.

Lemma position_spec l : forall x p, NoDup l -> nth_error l p = Some x -> position x l = p.
Proof.
  induction l as [|y l IH]; intros x p N E; [destruct p; discriminate|]. inversion N as [|? ? N1 N2]; subst. destruct p as [|p].
  - cbn in E. assert (y = x) as -> by congruence. cbn. now rewrite point_eqb_refl.
  - cbn in E |- *. destruct (point_eqb x y) eqn:Exy.
    + apply point_eqb_spec in Exy as ->. apply nth_error_In in E. contradiction.
    + f_equal. now apply IH.
Qed.

Lemma point_lt t x p : point_of t x p -> (p < npoints t)%nat.
Proof. unfold point_of, npoints. intros E. apply nth_error_Some. congruence. Qed.

Lemma phase_point t b x p : NoDup (coords t) -> point_of t x p -> phase_at t b x = at_ (uw_phase t) b p.
Proof. intros N E. unfold phase_at. now rewrite (position_spec _ _ _ N E). Qed.

(** ** Adding up the neighbours *)
Definition dtile : tile := Tile (TileFile [] (BBox 0 0 0 0) [] []) [] [] [] 0.
Definition held (t : tile) (x : Z * Z) : nat := if contains t x then 1 else 0.
Definition part (t : tile) (b : nat) (x : Z * Z) : Q := if contains t x then phase_at t b x else 0.
Notation tl ts i := (nth i ts dtile).

(** [ci] and [cj] list the points that two tiles share. *)
Definition matches (ti tj : tile) (ci cj : list nat) : Prop :=
  length ci = length cj /\ NoDup ci /\
  forall p q, In (p, q) (combine ci cj) <-> exists x, point_of ti x p /\ point_of tj x q.

Lemma common_matches f ts i j : recorded f ts -> In (i, j) (of_overlaps f) ->
  exists c1 c2, get_common_overlap f i j = Ok (c1, c2) /\
    matches (tl ts i) (tl ts j) c1 c2 /\ matches (tl ts j) (tl ts i) c2 c1.
Proof.
  intros (_ & _ & Ho & Hg) I. destruct (Ho i j I) as (_ & _ & g & Ig & Eg). unfold get_common_overlap.
  destruct (find _ (of_groups f)) as [g'|] eqn:E.
  - apply find_some in E as [I' E]. assert (og_pair g' = (i, j)) as P by (destruct (og_pair g'); cbn in E; f_equal; lia).
    destruct (Hg g' i j I' P) as (L & N1 & N2 & M). exists (og_c1 g'), (og_c2 g'). split; [auto|].
    split; (split; [lia|split; [auto|]]); [exact M|].
    intros p q. rewrite combine_swap, M. split; intros (x & A & B); eauto.
  - exfalso. apply find_none with (x := g) in E; [|auto]. rewrite Eg in E. cbn in E. lia.
Qed.

Lemma match_bounds ti tj ci cj : matches ti tj ci cj ->
  (forall p, In p ci -> (p < npoints ti)%nat) /\ (forall q, In q cj -> (q < npoints tj)%nat).
Proof.
  intros (L & _ & M). split.
  - intros p I. apply (In_nth _ _ 0%nat) in I as (k & Hk & <-).
    destruct (proj1 (M (nth k ci 0%nat) (nth k cj 0%nat))) as (x & A & _).
    + rewrite <- combine_nth by auto. apply nth_In. rewrite combine_length. lia.
    + eapply point_lt; eauto.
  - intros q I. apply (In_nth _ _ 0%nat) in I as (k & Hk & <-).
    destruct (proj1 (M (nth k ci 0%nat) (nth k cj 0%nat))) as (x & _ & A).
    + rewrite <- combine_nth by auto. apply nth_In. rewrite combine_length. lia.
    + eapply point_lt; eauto.
Qed.

Lemma map_combine_r {A B C} (g : B -> C) (l : list A) : forall l', combine l (map g l') = map (fun p => (fst p, g (snd p))) (combine l l').
Proof. induction l as [|a l IH]; intros [|b l']; cbn; auto. now rewrite IH. Qed.

Lemma scatter_match {A} (add : A -> A -> A) (d : A) ti tj ci cj (v : nat -> A) (row : list A) x p :
  NoDup (coords ti) -> matches ti tj ci cj -> length row = npoints ti -> point_of ti x p ->
  let r := scatter_add add d row ci (map v cj) in
  length r = npoints ti /\
  (forall q, point_of tj x q -> nth p r d = add (nth p row d) (v q)) /\
  (contains tj x = false -> nth p r d = nth p row d).
Proof.
  intros N (L & Nc & M) Lr P. cbv zeta.
  destruct (scatter_add_spec add d row ci (map v cj) Nc) as (R1 & R2 & R3); [now rewrite map_length|].
  split; [lia|]. split.
  - intros q Q. apply R3; [rewrite Lr; eapply point_lt; eauto|]. rewrite map_combine_r. apply in_map_iff.
    exists (p, q). split; [auto|]. apply M. eauto.
  - intros C. apply R2. intros I. apply (In_nth _ _ 0%nat) in I as (k & Hk & E).
    destruct (proj1 (M (nth k ci 0%nat) (nth k cj 0%nat))) as (y & A1 & A2).
    + rewrite <- combine_nth by auto. apply nth_In. rewrite combine_length. lia.
    + rewrite E in A1. unfold point_of in *. assert (y = x) as -> by congruence.
      enough (contains tj x = true) by congruence. apply contains_spec. eauto.
Qed.

Section Pass.
  Variables (f : overlap_file) (ts : list tile) (nb : nat).
  Hypothesis Hd : recorded f ts.
  Hypothesis Hready : forall t, In t ts -> ready nb t.

  Let Hin i : (i < length ts)%nat -> In (tl ts i) ts.
  Proof. apply nth_In. Qed.
  Let Hrd i : (i < length ts)%nat -> ready nb (tl ts i).
  Proof. intros H. apply Hready, nth_In, H. Qed.

  Lemma uw_ready t : ready nb t -> has_shape (uw_phase t) nb (npoints t).
  Proof. intros (Ok_ & E & _). rewrite <- E. now apply uw_shape. Qed.

  Definition link i j := In (Nat.min i j, Nat.max i j) (of_overlaps f).

  Lemma add_neighbour_ok ii jj c s : link ii jj ->
    length c = npoints (tl ts ii) -> has_shape s nb (npoints (tl ts ii)) ->
    exists c' s', add_neighbour f ts ii (c, s) jj = Ok (c', s') /\
      length c' = npoints (tl ts ii) /\ has_shape s' nb (npoints (tl ts ii)) /\
      forall x p, point_of (tl ts ii) x p ->
        nth p c' O = (nth p c O + held (tl ts jj) x)%nat /\
        forall b, (b < nb)%nat -> at_ s' b p == at_ s b p + part (tl ts jj) b x.
  Proof.
    intros Hl Lc Ss. pose proof Hd as Hd'. destruct Hd as (_ & _ & Ho & _). destruct (Ho _ _ Hl) as (H1 & H2 & _).
    assert (ii < length ts /\ jj < length ts /\ ii <> jj)%nat as (Bi & Bj & Nij) by lia.
    assert (exists ci cj, (if (ii <? jj)%nat then get_common_overlap f ii jj
                else do ji <- get_common_overlap f jj ii; Ok (snd ji, fst ji)) = Ok (ci, cj) /\
            matches (tl ts ii) (tl ts jj) ci cj) as (ci & cj & Eg & M).
    { destruct (common_matches f ts _ _ Hd' Hl) as (c1 & c2 & E & M1 & M2). destruct (ii <? jj)%nat eqn:Lt.
      - replace (Nat.min ii jj) with ii in * by lia. replace (Nat.max ii jj) with jj in * by lia. eauto.
      - replace (Nat.min ii jj) with jj in * by lia. replace (Nat.max ii jj) with ii in * by lia. rewrite E. cbn. eauto. }
    unfold add_neighbour. rewrite (nth_error_nth' ts dtile Bj). rewrite Eg. cbn [bind].
    pose proof (match_bounds _ _ _ _ M) as [B1 B2].
    rewrite (proj2 (forallb_forall _ _)) by (intros k I; rewrite Lc; specialize (B1 k I); lia).
    rewrite (proj2 (forallb_forall _ _)) by (intros k I; specialize (B2 k I); lia).
    replace (length ci =? length cj)%nat with true by (destruct M; lia). cbn [negb].
    set (c' := scatter_add _ _ _ _ _). set (s' := map _ _). exists c', s'. split; [reflexivity|].
    destruct (Hrd ii Bi) as (Ti & Ei & _ & _ & Ni). destruct (Hrd jj Bj) as (Tj & Ej & _ & _ & Nj).
    pose proof (uw_ready _ (Hrd jj Bj)) as Uj.
    assert (repeat 1%nat (length ci) = map (fun _ => 1%nat) cj) as Er.
    { destruct M as [L _]. rewrite L. clear. induction cj; cbn; congruence. }
    assert (c' = scatter_add Nat.add 0%nat c ci (map (fun _ => 1%nat) cj)) as Ec by (unfold c'; now rewrite Er).
    split; [|split].
    - rewrite Ec, <- Lc. apply scatter_add_spec; [apply M|rewrite map_length; apply M].
    - split; [unfold s'; rewrite map_length, combine_length; destruct Ss, Uj; lia|].
      intros row I. unfold s' in I. apply in_map_iff in I as ([r u] & <- & I). cbn [fst snd].
      destruct Ss as [Ls Hs]. rewrite <- (Hs r) by (eapply in_combine_l; eauto).
      apply scatter_add_spec; [apply M|rewrite map_length; apply M].
    - intros x p P. pose proof (point_lt _ _ _ P) as Pl. split.
      + rewrite Ec. destruct (scatter_match Nat.add 0%nat _ _ _ _ (fun _ => 1%nat) c x p Ni M Lc P) as (_ & S1 & S2).
        unfold held. destruct (contains (tl ts jj) x) eqn:Cx; [|rewrite S2; [lia|auto]].
        apply contains_spec in Cx as (q & Q). rewrite (S1 q Q). reflexivity.
      + intros b Hb. unfold at_ at 1. unfold s'. destruct Ss as [Ls Hs].
        rewrite (map_nth' _ _ _ ([], [])) by (rewrite combine_length; destruct Uj; lia).
        rewrite combine_nth by (destruct Uj; lia). cbn [fst snd].
        destruct (scatter_match Qplus 0 _ _ _ _ (fun k => nth k (nth b (uw_phase (tl ts jj)) []) 0) (nth b s []) x p Ni M) as (_ & S1 & S2).
        * apply Hs, nth_In. lia.
        * exact P.
        * unfold part. destruct (contains (tl ts jj) x) eqn:Cx; [|rewrite S2; [unfold at_; ring|auto]].
          apply contains_spec in Cx as (q & Q). rewrite (S1 q Q). rewrite (phase_point _ _ _ _ Nj Q). reflexivity.
  Qed.

  Lemma add_neighbours_ok ii nbrs : (forall j, In j nbrs -> link ii j) -> forall c s,
    length c = npoints (tl ts ii) -> has_shape s nb (npoints (tl ts ii)) ->
    exists c' s', fold_res (add_neighbour f ts ii) (c, s) nbrs = Ok (c', s') /\
      length c' = npoints (tl ts ii) /\ has_shape s' nb (npoints (tl ts ii)) /\
      forall x p, point_of (tl ts ii) x p ->
        nth p c' O = (nth p c O + length (filter (fun j => contains (tl ts j) x) nbrs))%nat /\
        forall b, (b < nb)%nat ->
          at_ s' b p == at_ s b p + sumQ (map (fun j => phase_at (tl ts j) b x) (filter (fun j => contains (tl ts j) x) nbrs)).
  Proof.
    induction nbrs as [|j nbrs IH]; intros Hl c s Lc Ss.
    - exists c, s. cbn [fold_res filter length map]. repeat split; auto; try apply Ss.
      intros b _. unfold sumQ. cbn. ring.
    - destruct (add_neighbour_ok ii j c s) as (c1 & s1 & E1 & L1 & S1 & V1); [apply Hl; now left|auto|auto|].
      destruct (IH (fun j I => Hl j (or_intror I)) c1 s1 L1 S1) as (c2 & s2 & E2 & L2 & S2 & V2).
      exists c2, s2. split; [cbn [fold_res]; rewrite E1; exact E2|]. split; [auto|]. split; [auto|].
      intros x p P. destruct (V1 x p P) as [C1 Q1]. destruct (V2 x p P) as [C2 Q2]. cbn [filter].
      unfold held in C1. unfold part in Q1. destruct (contains (tl ts j) x).
      + split; [cbn [length]; lia|]. intros b Hb. rewrite Q2, Q1 by auto. cbn [map]. unfold sumQ. cbn [fold_right]. ring.
      + split; [lia|]. intros b Hb. rewrite Q2, Q1 by auto. ring.
  Qed.

  (** The neighbours listed for a tile. *)
  Definition neighbours (i : nat) : list nat :=
    flat_map (fun e => (if (fst e =? i)%nat then [snd e] else [])
                       ++ (if (snd e =? i)%nat then [fst e] else [])) (of_overlaps f).

  Lemma overlap_map_ok : overlap_map f = Ok (map neighbours (seq 0 (length ts))).
  Proof.
    destruct Hd as (Lc & _ & Ho & _). unfold overlap_map. rewrite Lc.
    assert (existsb (fun e => (length ts <=? fst e) || (length ts <=? snd e))%nat (of_overlaps f) = false) as ->.
    { destruct (existsb _ _) eqn:E; [|auto]. apply existsb_exists in E as ([i j] & I & E). apply Ho in I. cbn in E. lia. }
    reflexivity.
  Qed.

  Lemma neighbours_link i j : In j (neighbours i) <-> link i j.
  Proof.
    unfold neighbours, link. destruct Hd as (_ & _ & Ho & _). rewrite in_flat_map. split.
    - intros ([a b] & I & K). destruct (Ho _ _ I) as (Lt & _). apply in_app_or in K. cbn [fst snd] in K. destruct K as [K|K].
      + destruct (a =? i)%nat eqn:E; [|destruct K]. destruct K as [<-|[]]. assert (a = i) as <- by lia.
        now replace (Nat.min a b, Nat.max a b) with (a, b) by (f_equal; lia).
      + destruct (b =? i)%nat eqn:E; [|destruct K]. destruct K as [<-|[]]. assert (b = i) as <- by lia.
        now replace (Nat.min b a, Nat.max b a) with (a, b) by (f_equal; lia).
    - intros I. eexists. split; [exact I|]. destruct (Ho _ _ I) as (Lt & _). cbn [fst snd]. apply in_or_app.
      destruct (Nat.lt_ge_cases i j).
      + left. replace (Nat.min i j) with i by lia. rewrite Nat.eqb_refl. left. lia.
      + right. replace (Nat.max i j) with i by lia. rewrite Nat.eqb_refl. left. lia.
  Qed.

  Lemma neighbours_nodup i : NoDup (neighbours i).
  Proof.
    unfold neighbours. destruct Hd as (_ & Nd & Ho & _). apply NoDup_flat_map; [exact Nd| |].
    - intros [a b] I. destruct (Ho _ _ I) as (Lt & _). cbn [fst snd]. destruct (a =? i)%nat eqn:E1, (b =? i)%nat eqn:E2; cbn; repeat constructor; try lia; auto.
    - assert (forall a b y, (a < b)%nat -> In y ((if (a =? i)%nat then [b] else []) ++ (if (b =? i)%nat then [a] else [])) ->
        a = Nat.min i y /\ b = Nat.max i y) as Hk.
      { intros a b y Lt K. apply in_app_or in K. destruct K as [K|K].
        - destruct (a =? i)%nat eqn:E; [|destruct K]. destruct K as [<-|[]]. lia.
        - destruct (b =? i)%nat eqn:E; [|destruct K]. destruct K as [<-|[]]. lia. }
      intros [a b] [a' b'] y I I' K K'. destruct (Ho _ _ I) as (Lt & _), (Ho _ _ I') as (Lt' & _). cbn [fst snd] in *.
      apply Hk in K as [-> ->]; [|auto]. apply Hk in K' as [-> ->]; auto.
  Qed.

  Hypothesis Hcp : complete f ts.
  Lemma neighbours_all i x : (i < length ts)%nat -> contains (tl ts i) x = true ->
    Permutation (filter (fun j => contains (tl ts j) x) (seq 0 (length ts)))
      (i :: filter (fun j => contains (tl ts j) x) (neighbours i)).
  Proof.
    intros Bi Cx. destruct Hd as (_ & _ & Ho & _). pose proof Hcp as Hs. unfold complete in Hs. fold dtile in Hs. apply NoDup_Permutation.
    - apply NoDup_filter, seq_NoDup.
    - constructor; [|apply NoDup_filter, neighbours_nodup]. rewrite filter_In, neighbours_link. intros [K _].
      apply Ho in K. lia.
    - intros j. rewrite filter_In, in_seq. cbn [In]. rewrite filter_In, neighbours_link. split.
      + intros [B C]. destruct (Nat.eq_dec i j) as [->|N]; [now left|right]. split; [|auto]. unfold link.
        destruct (Nat.lt_ge_cases i j).
        * replace (Nat.min i j) with i by lia. replace (Nat.max i j) with j by lia. eapply Hs; eauto. lia.
        * replace (Nat.min i j) with j by lia. replace (Nat.max i j) with i by lia. eapply (Hs j i); eauto. lia.
      + intros [<-|[K C]]; [split; [lia|auto]|]. split; [|auto]. apply Ho in K. lia.
  Qed.

  Lemma holders_index x : holders ts x = map (fun j => tl ts j) (filter (fun j => contains (tl ts j) x) (seq 0 (length ts))).
  Proof.
    unfold holders. rewrite (list_eq_map_seq ts dtile) at 1. generalize (seq 0 (length ts)). intros l.
    induction l as [|a l IH]; [auto|]. cbn. destruct (contains _ x); cbn; now rewrite IH.
  Qed.

  (** Counts and sums after visiting all neighbours. *)
  Lemma gathered ii : (ii < length ts)%nat ->
    exists c s, fold_res (add_neighbour f ts ii) (repeat 1%nat (npoints (tl ts ii)), uw_phase (tl ts ii)) (neighbours ii) = Ok (c, s) /\
      length c = npoints (tl ts ii) /\ has_shape s nb (npoints (tl ts ii)) /\
      forall x p, point_of (tl ts ii) x p ->
        nth p c O = length (holders ts x) /\
        forall b, (b < nb)%nat -> at_ s b p == sumQ (map (fun t => phase_at t b x) (holders ts x)).
  Proof.
    intros Bi. destruct (add_neighbours_ok ii (neighbours ii)) with (c := repeat 1%nat (npoints (tl ts ii))) (s := uw_phase (tl ts ii))
      as (c & s & E & L & S & V).
    - intros j. apply neighbours_link.
    - apply repeat_length.
    - apply uw_ready, Hrd, Bi.
    - exists c, s. split; [auto|]. split; [auto|]. split; [auto|]. intros x p P. destruct (V x p P) as [C Q].
      assert (contains (tl ts ii) x = true) as Cx by (apply contains_spec; eauto).
      pose proof (neighbours_all ii x Bi Cx) as Pm. rewrite holders_index. split.
      + rewrite map_length, (Permutation_length Pm), C, nth_repeat_lt by (eapply point_lt; eauto). reflexivity.
      + intros b Hb. rewrite map_map, Q by auto. rewrite (sumQ_perm _ _ (Permutation_map (fun j => phase_at (tl ts j) b x) Pm)).
        cbn [map]. unfold sumQ at 2. cbn [fold_right]. destruct (Hrd ii Bi) as (_ & _ & _ & _ & N).
        rewrite (phase_point _ _ _ _ N P). reflexivity.
  Qed.
End Pass.

(** ** Visiting the tiles in some order *)
Section Order.
  Variables (cg : list (list Q) -> list Q -> list Q) (ilu : list (list Q) -> bool)
            (triangles : list (Z * Z) -> res (list (nat * nat * nat)))
            (f : overlap_file) (omap : list (list nat)) (degree : nat).

  Definition push (t : tile) (m : matrix) : tile :=
    Tile (t_file t) (t_idx t) (t_raw t) (t_corr t ++ [m]) (t_level t).

  Definition raw_corr (c : list nat) (s data : matrix) : matrix :=
    map (fun sd => map (fun t => fst (fst t) / inject_Z (Z.of_nat (snd t)) - snd (fst t))
                       (combine (combine (fst sd) (snd sd)) c)) (combine s data).
  Definition mask_of (c : list nat) : list bool := map (fun k => (degree <=? k)%nat) c.

  (** The correction that tile [ii] gets. *)
  Definition delta (ts : list tile) (ii : nat) : res (option matrix) :=
    match nth_error ts ii with
    | None => Err KeyError
    | Some ti =>
      if negb (t_level ti =? 1)%nat then Err AssertionError
      else match nth_error omap ii with
      | None => Err KeyError
      | Some nbrs =>
        do cs <- fold_res (add_neighbour f ts ii) (repeat 1%nat (npoints ti), uw_phase ti) nbrs;
        if negb (existsb (fun b => b) (mask_of (fst cs))) then Ok None
        else
          do lap <- tile_laplacian triangles ti;
          do correction <- dirichlet_graph cg ilu true lap (npoints ti) (raw_corr (fst cs) (snd cs) (uw_phase ti)) (mask_of (fst cs));
          do m <- broadcast (length (t_idx ti)) (npoints ti) (A2 (npoints ti) correction);
          Ok (Some m)
      end
    end.

  Definition put_delta (t : tile) (o : res (option matrix)) : tile :=
    match o with Ok (Some m) => push t m | _ => t end.

  Lemma adjust_delta ts ii :
    adjust_tile cg ilu triangles f omap degree ts ii =
    do o <- delta ts ii; Ok (match o with None => ts | Some m => upd ts ii (push (tl ts ii) m) end).
  Proof using.
    unfold adjust_tile, delta. destruct (nth_error ts ii) as [ti|] eqn:E; [|reflexivity].
    apply (nth_error_nth ts ii dtile) in E. rewrite E.
    destruct (negb _); [reflexivity|]. destruct (nth_error omap ii) as [nbrs|]; [|reflexivity].
    destruct (fold_res _ _ nbrs) as [[c s]|]; [|reflexivity]. cbn [bind fst snd]. unfold mask_of, raw_corr.
    destruct (negb _); [reflexivity|]. destruct (tile_laplacian _ ti) as [lap|]; [|reflexivity]. cbn [bind].
    destruct (dirichlet_graph _ _ _ _ _ _ _) as [corr|]; [|reflexivity]. cbn [bind]. unfold add_correction.
    destruct (broadcast _ _ _) as [m|]; reflexivity.
  Qed.

  Definition same_view (t t' : tile) : Prop :=
    t_file t = t_file t' /\ t_idx t = t_idx t' /\ t_level t = t_level t' /\ uw_phase t = uw_phase t'.

  Lemma same_view_refl t : same_view t t.
  Proof using. repeat split. Qed.

  Lemma Forall2_nth_error {A B} (R : A -> B -> Prop) l l' i : Forall2 R l l' ->
    match nth_error l i, nth_error l' i with Some a, Some b => R a b | None, None => True | _, _ => False end.
  Proof using. intros H. revert i. induction H; intros [|i]; cbn; auto. apply IHForall2. Qed.

  Lemma Forall2_len {A B} (R : A -> B -> Prop) l l' : Forall2 R l l' -> length l = length l'.
  Proof using. induction 1; cbn; congruence. Qed.

  Lemma add_neighbour_view ts ts' ii : Forall2 same_view ts ts' -> forall acc jj,
    add_neighbour f ts ii acc jj = add_neighbour f ts' ii acc jj.
  Proof using.
    intros V acc jj. unfold add_neighbour. pose proof (Forall2_nth_error _ _ _ jj V) as K.
    destruct (nth_error ts jj) as [t|], (nth_error ts' jj) as [t'|]; try contradiction; [|reflexivity].
    destruct K as (E1 & E2 & E3 & E4). unfold npoints, coords. now rewrite E1, E4.
  Qed.

  Lemma fold_res_ext {A B} (g h : A -> B -> res A) l : (forall a b, g a b = h a b) -> forall a, fold_res g a l = fold_res h a l.
  Proof using. intros E. induction l as [|b l IH]; intros a; [auto|]. cbn. rewrite E. destruct (h a b); [apply IH|auto]. Qed.

  Lemma delta_view ts ts' ii : Forall2 same_view ts ts' -> delta ts ii = delta ts' ii.
  Proof using.
    intros V. unfold delta. pose proof (Forall2_nth_error _ _ _ ii V) as K.
    destruct (nth_error ts ii) as [t|], (nth_error ts' ii) as [t'|]; try contradiction; [|reflexivity].
    destruct K as (E1 & E2 & E3 & E4). unfold tile_laplacian, npoints, coords. rewrite E1, E2, E3, E4.
    destruct (negb _); [reflexivity|]. destruct (nth_error omap ii); [|reflexivity].
    now rewrite (fold_res_ext _ _ _ (add_neighbour_view ts ts' ii V)).
  Qed.

  Definition active (t : tile) : Prop := t_level t = 1%nat /\ t_corr t <> [].

  Lemma push_view t m : active t -> same_view t (push t m) /\ active (push t m).
  Proof using.
    intros [L C]. split.
    - unfold same_view, push. cbn. repeat split. unfold uw_phase, get_uw_phase, get_corrections_sum. cbn [t_raw t_level t_corr].
      rewrite L. destruct (t_corr t); [contradiction|reflexivity].
    - split; [exact L|]. cbn. intros E. apply app_eq_nil in E as [_ E]. discriminate.
  Qed.

  Lemma Forall2_upd {A B} (R : A -> B -> Prop) l l' i b d : Forall2 R l l' -> R (nth i l d) b -> Forall2 R l (upd l' i b).
  Proof using.
    intros H. revert i. induction H; intros [|i] K; cbn in *; constructor; auto.
  Qed.

  Lemma same_view_trans t1 t2 t3 : same_view t1 t2 -> same_view t2 t3 -> same_view t1 t3.
  Proof using. intros (A1 & A2 & A3 & A4) (B1 & B2 & B3 & B4). repeat split; congruence. Qed.

  Lemma Forall2_nth {A B} (R : A -> B -> Prop) l l' d d' i : Forall2 R l l' -> (i < length l)%nat -> R (nth i l d) (nth i l' d').
  Proof using. intros H. revert i. induction H; intros [|i] K; cbn in *; try lia; auto. apply IHForall2. lia. Qed.

  Lemma Forall_upd {A} (P : A -> Prop) l i a : Forall P l -> P a -> Forall P (upd l i a).
  Proof using. intros H. revert i. induction H; intros [|i] K; cbn; auto. Qed.

  Lemma delta_lt ts i o : delta ts i = Ok o -> (i < length ts)%nat.
  Proof using. unfold delta. destruct (nth_error ts i) eqn:E; [|discriminate]. intros _. apply nth_error_Some. congruence. Qed.

  Lemma visit ts0 order : NoDup order -> forall ts ts', Forall2 same_view ts0 ts -> Forall active ts ->
    (fold_res (adjust_tile cg ilu triangles f omap degree) ts order = Ok ts' <->
     (forall i, In i order -> exists o, delta ts0 i = Ok o) /\ length ts' = length ts /\
     forall i, nth i ts' dtile = if in_dec Nat.eq_dec i order then put_delta (nth i ts dtile) (delta ts0 i) else nth i ts dtile).
  Proof using.
    induction order as [|k order IH]; intros Nd ts ts' V A.
    - cbn [fold_res]. split.
      + intros E. assert (ts' = ts) as -> by congruence. split; [intros i []|]. split; [auto|]. intros i. destruct (in_dec _ _ _) as [[]|]; auto.
      + intros (_ & L & E). f_equal. apply (nth_ext _ _ dtile dtile); [auto|]. intros i _. symmetry. rewrite E. destruct (in_dec _ _ _) as [[]|]; auto.
    - inversion Nd as [|? ? Nk Nd']; subst. cbn [fold_res]. rewrite adjust_delta. rewrite <- (delta_view _ _ k V).
      destruct (delta ts0 k) as [o|e] eqn:Ek.
      + cbn [bind]. pose proof (delta_lt _ _ _ Ek) as Bk0. pose proof (Forall2_len _ _ _ V) as Lv.
        set (ts1 := match o with None => ts | Some m => upd ts k (push (tl ts k) m) end).
        assert (active (tl ts k)) as Ak by (eapply Forall_forall; [exact A|apply nth_In; lia]).
        assert (forall i, nth i ts1 dtile = if Nat.eq_dec i k then put_delta (nth i ts dtile) (delta ts0 i) else nth i ts dtile) as N1.
        { intros i. unfold ts1. destruct (Nat.eq_dec i k) as [->|N].
          - rewrite Ek. destruct o as [m|]; cbn [put_delta]; [|auto]. apply nth_upd_eq. lia.
          - destruct o; [|auto]. now rewrite nth_upd_neq by auto. }
        assert (length ts1 = length ts) as L1 by (unfold ts1; destruct o; [now rewrite upd_length|auto]).
        assert (Forall2 same_view ts0 ts1 /\ Forall active ts1) as [V1 A1].
        { unfold ts1. destruct o as [m|]; [|auto]. destruct (push_view (tl ts k) m Ak) as [PV PA]. split.
          - apply Forall2_upd with (d := dtile); [auto|]. eapply same_view_trans; [|exact PV]. apply Forall2_nth; auto.
          - now apply Forall_upd. }
        rewrite (IH Nd' ts1 ts' V1 A1). rewrite L1. split.
        * intros (D & L & E). split; [|split; [auto|]].
          -- intros i [<-|I]; [eauto|auto].
          -- intros i. rewrite E, N1. destruct (in_dec _ i order) as [I|I], (in_dec _ i (k :: order)) as [J|J], (Nat.eq_dec i k) as [->|N];
               try contradiction; auto; exfalso; cbn in J; intuition congruence.
        * intros (D & L & E). split; [|split; [auto|]].
          -- intros i I. apply D. now right.
          -- intros i. rewrite E, N1. destruct (in_dec _ i order) as [I|I], (in_dec _ i (k :: order)) as [J|J], (Nat.eq_dec i k) as [->|N];
               try contradiction; auto; exfalso; cbn in J; intuition congruence.
      + cbn [bind]. split; [discriminate|]. intros (D & _). destruct (D k (or_introl eq_refl)) as (o & E). congruence.
  Qed.

  Lemma pass_order ts order order' ts' : Forall active ts -> NoDup order -> Permutation order order' ->
    adjust_pass cg ilu triangles order f omap ts degree = Ok ts' ->
    adjust_pass cg ilu triangles order' f omap ts degree = Ok ts'.
  Proof using.
    intros A Nd P H. unfold adjust_pass in *. destruct (fold_res _ ts order) as [ts1|] eqn:E; [|discriminate].
    assert (fold_res (adjust_tile cg ilu triangles f omap degree) ts order' = Ok ts1) as ->; [|exact H].
    assert (Forall2 same_view ts ts) as V by (clear; induction ts; constructor; auto using same_view_refl).
    apply (visit ts) in E as (D & L & N); auto. apply (visit ts); auto; [eapply Permutation_NoDup; eauto|].
    split; [|split; [auto|]].
    - intros i I. apply D. eapply Permutation_in; [apply Permutation_sym|]; eauto.
    - intros i. rewrite N. destruct (in_dec _ i order) as [I|I], (in_dec _ i order') as [J|J]; auto.
      + exfalso. apply J. eapply Permutation_in; eauto.
      + exfalso. apply I. eapply Permutation_in; [apply Permutation_sym|]; eauto.
  Qed.
End Order.

(** ** What one pass does to the phases *)
Lemma broadcast_full nb np rows : has_shape rows nb np -> broadcast nb np (A2 np rows) = Ok rows.
Proof.
  intros [L H]. unfold broadcast. destruct rows as [|[|q [|q' row]] [|r2 rows]];
    rewrite ?Nat.eqb_refl; cbn [negb]; try (rewrite (proj2 (Nat.eqb_eq _ _) L); reflexivity).
  specialize (H [q] (or_introl eq_refl)). cbn in L, H. subst. reflexivity.
Qed.

Lemma raw_corr_ok c s data nb np : length c = np -> has_shape s nb np -> has_shape data nb np ->
  has_shape (raw_corr c s data) nb np /\
  forall b p, (b < nb)%nat -> (p < np)%nat ->
    at_ (raw_corr c s data) b p = at_ s b p / inject_Z (Z.of_nat (nth p c O)) - at_ data b p.
Proof.
  intros Lc Ss Sd. unfold raw_corr. split.
  - destruct Ss as [Ls Hs], Sd as [Ld Hd]. split; [rewrite map_length, combine_length; lia|].
    intros row I. apply in_map_iff in I as ([r u] & <- & I). cbn [fst snd]. rewrite map_length, !combine_length.
    rewrite (Hs r), (Hd u); [lia|eapply in_combine_r; eauto|eapply in_combine_l; eauto].
  - intros b p Hb Hp. unfold at_. pose proof (shape_nth _ _ _ _ Ss Hb) as Rs. pose proof (shape_nth _ _ _ _ Sd Hb) as Rd.
    destruct Ss as [Ls Hs], Sd as [Ld Hd].
    rewrite (map_nth' _ _ _ ([], [])) by (rewrite combine_length; lia). rewrite combine_nth by lia. cbn [fst snd].
    rewrite (map_nth' _ _ _ ((0, 0), O)) by (rewrite !combine_length; lia).
    rewrite combine_nth by (rewrite combine_length; lia). rewrite combine_nth by lia. reflexivity.
Qed.

Lemma dirichlet_row_zero cg a mask xf x : length mask = length a -> length xf = length mask ->
  (forall i, masked mask i -> nth i xf 0 == 0) -> dirichlet_row cg true a mask xf = Ok x ->
  forall i, (i < length mask)%nat -> nth i x 0 == 0.
Proof.
  intros Lm Lx Hz H i Hi. pose proof H as H0. apply row_ok in H0 as (_ & Mx & _); [|auto].
  destruct (split_point mask i Hi) as [M|F]; [rewrite (Mx i 0 M); now apply Hz|].
  unfold dirichlet_row in H. destruct (negb _); [discriminate|].
  assert (all_zero (sel (off mask) (map (fun row => - dotQ (sel mask row) (sel mask xf)) a)) = true) as E.
  { assert (forall y, In y (sel mask xf) -> y == 0) as Hs.
    { clear -Lx Hz. unfold masked in Hz. revert xf Lx Hz. induction mask as [|b m IH]; intros [|z xf] L Hz y I; try discriminate; [destruct I|].
      assert (forall i, nth i m false = true -> nth i xf 0 == 0) as Hz' by (intros i K; apply (Hz (S i)); exact K).
      cbn in L. destruct b; cbn in I; [destruct I as [<-|I]; [apply (Hz O); reflexivity|]|]; apply (IH xf); auto; lia. }
    assert (forall u v, (forall y, In y v -> y == 0) -> dotQ u v == 0) as Hdot.
    { induction u as [|p u IH]; intros [|q v] Hv; try reflexivity. rewrite dotQ_cons, IH by (intros y I; apply Hv; now right).
      rewrite (Hv q) by now left. ring. }
    apply all_zero_spec. intros y I.
    assert (In y (map (fun row => - dotQ (sel mask row) (sel mask xf)) a)) as I'.
    { clear -I. revert I. generalize (map (fun row => - dotQ (sel mask row) (sel mask xf)) a). generalize (off mask).
      induction l as [|b m IH]; intros [|z l0] I; cbn in I; try (now destruct I); try (destruct b; now destruct I).
      destruct b; [destruct I as [<-|I]; [now left|]|]; right; now apply IH. }
    apply in_map_iff in I' as (row & <- & _). rewrite Hdot by auto. reflexivity. }
  rewrite E, orb_true_r in H. cbn [andb] in H.
  set (v := repeat 0 (length (free_block mask a))) in H. assert (x = put (off mask) v xf) as -> by congruence.
  assert (length v = count (off mask)) as Lv.
  { unfold v. rewrite repeat_length. apply sel_length. now rewrite map_length, off_length. }
  destruct (masked_pos (off mask) i (free_off_masked _ _ F)) as (k & Hk & Pk).
  rewrite <- Pk by (rewrite put_length, off_length; auto). rewrite sel_put; [|now rewrite off_length|auto].
  unfold v. rewrite nth_repeat. reflexivity.
Qed.

Section Values.
  Variables (cg : list (list Q) -> list Q -> list Q) (ilu : list (list Q) -> bool)
            (triangles : list (Z * Z) -> res (list (nat * nat * nat)))
            (f : overlap_file) (ts : list tile) (nb degree : nat).
  Hypothesis Hd : recorded f ts.
  Hypothesis Hready : forall t, In t ts -> ready nb t.
  Let omap := map (neighbours f) (seq 0 (length ts)).
  Let del := delta cg ilu triangles f omap degree ts.

  Let Hrd i : (i < length ts)%nat -> ready nb (tl ts i).
  Proof. intros H. apply Hready, nth_In, H. Qed.

  Definition shared_count (x : Z * Z) : nat := length (holders ts x).

  Lemma masked_points c ti : length c = npoints ti ->
    (forall x p, point_of ti x p -> nth p c O = shared_count x) ->
    forall x p, point_of ti x p -> (masked (mask_of degree c) p <-> (degree <= shared_count x)%nat).
  Proof using.
    intros Lc Hc x p P. unfold masked, mask_of. rewrite (map_nth' _ _ _ O) by (rewrite Lc; eapply point_lt; eauto).
    rewrite (Hc x p P). lia.
  Qed.

  Lemma point_exists t p : (p < npoints t)%nat -> exists x, point_of t x p.
  Proof using.
    intros H. unfold point_of. destruct (nth_error (coords t) p) as [x|] eqn:E; [eauto|]. apply nth_error_None in E. unfold npoints in H. lia.
  Qed.

  Lemma gathered_shape ii : (ii < length ts)%nat ->
    exists c s, fold_res (add_neighbour f ts ii) (repeat 1%nat (npoints (tl ts ii)), uw_phase (tl ts ii)) (neighbours f ii) = Ok (c, s) /\
      length c = npoints (tl ts ii) /\ has_shape s nb (npoints (tl ts ii)) /\
      forall x p, point_of (tl ts ii) x p -> (forall j, (j < length ts)%nat -> j <> ii -> contains (tl ts j) x = false) -> nth p c O = 1%nat.
  Proof using Hready Hd.
    intros Bi. destruct (add_neighbours_ok f ts nb Hd Hready ii (neighbours f ii)) with (c := repeat 1%nat (npoints (tl ts ii))) (s := uw_phase (tl ts ii))
      as (c & s & E & L & S & V).
    - intros j. now apply (neighbours_link f ts).
    - apply repeat_length.
    - apply uw_ready, Hrd, Bi.
    - exists c, s. split; [exact E|]. split; [exact L|]. split; [exact S|]. intros x p P Hx. destruct (V x p P) as [-> _].
      rewrite nth_repeat_lt by (eapply point_lt; eauto). destruct (filter _ _) as [|j l] eqn:Ef; [reflexivity|].
      assert (In j (filter (fun j => contains (tl ts j) x) (neighbours f ii))) as I by (rewrite Ef; now left).
      apply filter_In in I as [I C]. apply (neighbours_link f ts) in I; [|exact Hd]. destruct Hd as (_ & _ & Ho & _). destruct (Ho _ _ I) as (B1 & B2 & _).
      rewrite (Hx j) in C by lia. discriminate.
  Qed.

  Lemma delta_shape ii m : (ii < length ts)%nat -> del ii = Ok (Some m) -> has_shape m nb (npoints (tl ts ii)).
  Proof using Hready Hd.
    intros Bi H. unfold del, delta in H. rewrite (nth_error_nth' ts dtile Bi) in H.
    destruct (Hrd ii Bi) as (Tok & Enb & Lv & Lc1 & Nd). rewrite Lv in H. cbn [Nat.eqb negb] in H.
    assert (nth_error omap ii = Some (neighbours f ii)) as Eo.
    { unfold omap. rewrite nth_error_map, (nth_error_nth' _ O) by now rewrite seq_length. cbn. now rewrite seq_nth. }
    rewrite Eo in H. destruct (gathered_shape ii Bi) as (c & s & Ef & Lc & Ss & _). rewrite Ef in H. cbn [bind fst snd] in H.
    destruct (negb _); [discriminate|].
    destruct (tile_laplacian _ _) as [lap|]; [|discriminate]. cbn [bind] in H.
    pose proof (uw_ready nb _ (Hrd ii Bi)) as Su.
    destruct (raw_corr_ok c s _ nb _ Lc Ss Su) as [[Lrc Hrc] _].
    destruct (dirichlet_graph _ _ _ _ _ _ _) as [corr|] eqn:Eg; [|discriminate]. cbn [bind] in H.
    apply graph_ok in Eg as (Hsq & Ln & Lcr & Hrow).
    assert (length (mask_of degree c) = npoints (tl ts ii)) as Lmk by (unfold mask_of; now rewrite map_length).
    assert (has_shape corr nb (npoints (tl ts ii))) as Sc.
    { split; [lia|]. intros row I. apply (In_nth _ _ []) in I as (k & Hk & <-). rewrite Lcr in Hk. specialize (Hrow k Hk).
      apply row_ok in Hrow as (L & _); [lia|]. rewrite Lmk. apply Hrc, nth_In, Hk. }
    rewrite Enb, broadcast_full in H by auto. cbn [bind] in H. injection H as <-. exact Sc.
  Qed.

  Hypothesis Hcp : complete f ts.
  Lemma delta_ok ii o : (ii < length ts)%nat -> del ii = Ok o ->
    match o with
    | None => forall x, contains (tl ts ii) x = true -> (shared_count x < degree)%nat
    | Some m => has_shape m nb (npoints (tl ts ii)) /\
        (forall x p, point_of (tl ts ii) x p -> (degree <= shared_count x)%nat ->
           forall b, (b < nb)%nat -> at_ m b p == average_at ts b x - at_ (uw_phase (tl ts ii)) b p) /\
        ((forall x p, point_of (tl ts ii) x p -> (degree <= shared_count x)%nat ->
           forall b, (b < nb)%nat -> average_at ts b x == at_ (uw_phase (tl ts ii)) b p) ->
         forall b p, (b < nb)%nat -> (p < npoints (tl ts ii))%nat -> at_ m b p == 0)
    end.
  Proof using Hcp Hd Hrd Hready cg degree del f ilu nb omap triangles ts.
    intros Bi H. unfold del, delta in H. rewrite (nth_error_nth' ts dtile Bi) in H.
    destruct (Hrd ii Bi) as (Tok & Enb & Lv & Lc1 & Nd). rewrite Lv in H. cbn [Nat.eqb negb] in H.
    assert (nth_error omap ii = Some (neighbours f ii)) as Eo.
    { unfold omap. rewrite nth_error_map, (nth_error_nth' _ O) by now rewrite seq_length. cbn. now rewrite seq_nth. }
    rewrite Eo in H. destruct (gathered f ts nb Hd Hready Hcp ii Bi) as (c & s & Ef & Lc & Ss & V). rewrite Ef in H. cbn [bind fst snd] in H.
    assert (forall x p, point_of (tl ts ii) x p -> nth p c O = shared_count x) as Hc by (intros x p P; apply V, P).
    pose proof (masked_points c _ Lc Hc) as Hm.
    destruct (existsb (fun b => b) (mask_of degree c)) eqn:Em; cbn [negb] in H.
    - destruct (tile_laplacian _ _) as [lap|]; [|discriminate]. cbn [bind] in H.
      pose proof (uw_ready nb _ (Hrd ii Bi)) as Su.
      destruct (raw_corr_ok c s _ nb _ Lc Ss Su) as [Sr Vr].
      set (rc := raw_corr c s (uw_phase (tl ts ii))) in *.
      destruct (dirichlet_graph _ _ _ _ _ _ _) as [corr|] eqn:Eg; [|discriminate]. cbn [bind] in H.
      apply graph_ok in Eg as (Hsq & Ln & Lcr & Hrow). pose proof Sr as [Lrc Hrc].
      assert (length (mask_of degree c) = npoints (tl ts ii)) as Lmk by (unfold mask_of; now rewrite map_length).
      assert (has_shape corr nb (npoints (tl ts ii))) as Sc.
      { split; [lia|]. intros row I. apply (In_nth _ _ []) in I as (k & Hk & <-). rewrite Lcr in Hk. specialize (Hrow k Hk).
        apply row_ok in Hrow as (L & _); [lia|]. rewrite Lmk. apply Hrc, nth_In, Hk. }
      rewrite Enb, broadcast_full in H by auto. cbn [bind] in H. injection H as <-.
      split; [auto|]. split.
      + intros x p P Hx b Hb. pose proof (point_lt _ _ _ P) as Pl.
        assert (masked (mask_of degree c) p) as Mp by (now apply (Hm x p P)).
        rewrite <- Lrc in Hb. pose proof (Hrow b Hb) as Hb'. apply row_ok in Hb' as (_ & Mx & _); [|rewrite Lmk; apply Hrc, nth_In, Hb].
        unfold at_ at 1. rewrite (Mx p 0 Mp). change (nth p (nth b rc []) 0) with (at_ rc b p). rewrite Lrc in Hb. rewrite Vr by auto.
        destruct (V x p P) as [Vc Vs]. rewrite Vs, Vc by auto. unfold average_at, average. rewrite map_length. reflexivity.
      + intros Hz b p Hb Hp. rewrite <- Lmk in Hp. rewrite <- Lrc in Hb. unfold at_.
        apply (dirichlet_row_zero cg lap (mask_of degree c) (nth b rc []) (nth b corr [])); auto; [lia|rewrite Lmk; apply Hrc, nth_In, Hb|].
        intros i Mi. pose proof (masked_lt _ _ Mi) as Li. rewrite Lmk in Li. destruct (point_exists _ _ Li) as (x & P).
        apply (Hm x i P) in Mi. change (nth i (nth b rc []) 0) with (at_ rc b i). rewrite Lrc in Hb. rewrite Vr by auto.
        destruct (V x i P) as [Vc Vs]. rewrite Vs, Vc by auto. specialize (Hz x i P Mi b Hb). unfold average_at, average in Hz. rewrite map_length in Hz.
        change (length (holders ts x)) with (shared_count x) in *. lra.
    - assert (o = None) as -> by congruence. intros x C. apply contains_spec in C as (p & P).
      destruct (Nat.lt_ge_cases (shared_count x) degree) as [L|G]; [auto|exfalso].
      apply (Hm x p P) in G. enough (existsb (fun b => b) (mask_of degree c) = true) by congruence.
      apply existsb_exists. exists true. split; [|auto]. rewrite <- G. apply nth_In. now apply masked_lt.
  Qed.

  Lemma sel_off_nonempty {A} (mask : list bool) : forall (l : list A) p, length mask = length l -> (p < length mask)%nat -> nth p mask true = false ->
    sel (off mask) l <> [].
  Proof using.
    clear. induction mask as [|b mask IH]; intros [|a l] p L Bp E; cbn in *; try lia. destruct b; cbn [negb]; [|discriminate].
    destruct p as [|p]; [discriminate|]. apply (IH l p); auto; lia.
  Qed.

  (** Every tile can be processed when its triangulation gives a Laplacian of
      the right size and the factorisation works. The factorisation is asked for
      an empty matrix only if every pixel of the tile is shared. *)
  Lemma delta_total ii lap : (ii < length ts)%nat -> tile_laplacian triangles (tl ts ii) = Ok lap ->
    is_square lap = true -> length lap = npoints (tl ts ii) -> (forall m, m <> [] -> ilu m = true) ->
    (ilu [] = true \/ (2 <= degree)%nat /\ own_pixel ts ii) -> exists o, del ii = Ok o.
  Proof using Hready Hd.
    intros Bi El Sq Ll Hi Hown. unfold del, delta. rewrite (nth_error_nth' ts dtile Bi).
    destruct (Hrd ii Bi) as (Tok & Enb & Lv & Lc1 & Nd). rewrite Lv. cbn [Nat.eqb negb].
    assert (nth_error omap ii = Some (neighbours f ii)) as ->.
    { unfold omap. rewrite nth_error_map, (nth_error_nth' _ O) by now rewrite seq_length. cbn. now rewrite seq_nth. }
    destruct (gathered_shape ii Bi) as (c & s & Ef & Lc & Ss & V1). rewrite Ef. cbn [bind fst snd].
    assert (ilu (free_block (mask_of degree c) lap) = true) as Hfb.
    { unfold own_pixel in Hown. cbv beta zeta in Hown. fold dtile in Hown. destruct Hown as [H0|(D2 & x & C & Hx)].
      - destruct (free_block _ _); [exact H0|]. apply Hi. discriminate.
      - apply Hi. apply contains_spec in C as (p & P). pose proof (point_lt _ _ _ P) as Pl. specialize (V1 x p P Hx).
        apply (sel_off_nonempty _ _ p); unfold mask_of; rewrite ?map_length; try lia. rewrite (map_nth' _ _ _ O) by lia. rewrite V1. lia. }
    destruct (negb _); [eauto|]. rewrite El. cbn [bind]. unfold dirichlet_graph. rewrite Sq, Ll, Nat.eqb_refl, Hfb. cbn [negb].
    destruct (raw_corr_ok c s _ nb _ Lc Ss (uw_ready nb _ (Hrd ii Bi))) as [[Lrc Hrc] Vr].
    set (rc := raw_corr c s (uw_phase (tl ts ii))) in *.
    assert (length (mask_of degree c) = npoints (tl ts ii)) as Lmk by (unfold mask_of; now rewrite map_length).
    assert (forall xf, In xf rc -> exists x, dirichlet_row cg true lap (mask_of degree c) xf = Ok x) as Hrow.
    { intros xf I. unfold dirichlet_row.
      assert (length (free_block (mask_of degree c) lap) =
              length (sel (off (mask_of degree c)) (map (fun row => - dotQ (sel (mask_of degree c) row) (sel (mask_of degree c) xf)) lap))) as ->.
      { unfold free_block. rewrite !sel_length by (rewrite map_length, off_length; lia). reflexivity. }
      rewrite Nat.eqb_refl. cbn [negb]. destruct (_ && true); eauto. }
    assert (exists corr, map_res (dirichlet_row cg true lap (mask_of degree c)) rc = Ok corr) as (corr & Ec).
    { clear -Hrow. induction rc as [|r rc IH]; [now exists []|]. destruct (Hrow r (or_introl eq_refl)) as (x & Ex).
      destruct IH as (l & El); [intros xf I; apply Hrow; now right|]. exists (x :: l). cbn. now rewrite Ex, El. }
    rewrite Ec. cbn [bind]. apply map_res_nth in Ec as [Lcr Hk].
    rewrite Enb, broadcast_full; [cbn [bind]; eauto|]. split; [lia|]. intros row I. apply (In_nth _ _ []) in I as (k & Hk' & <-). rewrite Lcr in Hk'.
    specialize (Hk k [] [] Hk'). apply row_ok in Hk as (L & _); [lia|]. rewrite Lmk. apply Hrc, nth_In, Hk'.
  Qed.
End Values.

(** ** All passes *)
Definition kept (t t' : tile) : Prop := t_file t' = t_file t /\ t_idx t' = t_idx t /\ t_raw t' = t_raw t.
Definition all_kept (ts ts' : list tile) : Prop :=
  length ts' = length ts /\ forall i, kept (tl ts i) (tl ts' i).

Lemma kept_coords t t' : kept t t' -> coords t' = coords t.
Proof. intros (E & _). unfold coords. now rewrite E. Qed.

Lemma kept_contains t t' x : kept t t' -> contains t' x = contains t x.
Proof. intros K. unfold contains. now rewrite (kept_coords _ _ K). Qed.

Lemma all_kept_refl ts : all_kept ts ts.
Proof. split; [auto|]. intros i. repeat split. Qed.
Lemma all_kept_trans a b c : all_kept a b -> all_kept b c -> all_kept a c.
Proof.
  intros [L1 K1] [L2 K2]. split; [lia|]. intros i. specialize (K1 i). specialize (K2 i).
  destruct K1 as (A1 & A2 & A3), K2 as (B1 & B2 & B3). repeat split; congruence.
Qed.

Lemma recorded_kept f ts ts' : all_kept ts ts' -> recorded f ts -> recorded f ts'.
Proof.
  intros [L K] (D1 & D2 & D3 & D5). unfold recorded. rewrite L. fold dtile. fold dtile in D5.
  split; [auto|]. split; [auto|]. split; [auto|].
  intros g i j I E. destruct (D5 g i j I E) as (A1 & A2 & A3 & A4). repeat split; auto;
      unfold point_of; rewrite !(kept_coords _ _ (K _)); apply A4.
Qed.
Lemma complete_kept f ts ts' : all_kept ts ts' -> complete f ts -> complete f ts'.
Proof.
  intros [L K] D4. unfold complete in *. rewrite L. fold dtile. fold dtile in D4.
  intros i j x. rewrite !(kept_contains _ _ _ (K _)). apply D4.
Qed.
Lemma describes_kept f ts ts' : all_kept ts ts' -> describes f ts -> describes f ts'.
Proof. intros K [D1 D2]. split; [eapply recorded_kept; eauto|eapply complete_kept; eauto]. Qed.

Lemma holders_length ts ts' x : all_kept ts ts' -> length (holders ts' x) = length (holders ts x).
Proof.
  intros [L K]. rewrite (holders_index ts), (holders_index ts'), !map_length, L. f_equal.
  apply filter_ext. intros j. apply kept_contains, K.
Qed.

Section Passes.
  Variables (cg : list (list Q) -> list Q -> list Q) (ilu : list (list Q) -> bool)
            (triangles : list (Z * Z) -> res (list (nat * nat * nat)))
            (f : overlap_file) (nb : nat).

  Let om (ts : list tile) := map (neighbours f) (seq 0 (length ts)).

  Lemma ready_active t : ready nb t -> active t.
  Proof using. intros (_ & _ & L & C & _). split; [auto|]. destruct (t_corr t); [discriminate|congruence]. Qed.

  Lemma compress_push t m : ready nb t -> has_shape m nb (npoints t) ->
    exists t', compress_corrections (push t m) = Ok t' /\ kept t t' /\ ready nb t' /\
      forall b p, (b < nb)%nat -> (p < npoints t)%nat -> at_ (uw_phase t') b p == at_ (uw_phase t) b p + at_ m b p.
  Proof using.
    intros (Tok & E & L & C & N) Sm. destruct (t_corr t) as [|c [|]] eqn:Ec; try discriminate.
    unfold compress_corrections, push. cbn [t_corr t_file t_idx t_raw t_level]. rewrite Ec. cbn [app last removelast length].
    cbn [Nat.ltb Nat.leb]. eexists. split; [reflexivity|]. destruct Tok as [T1 T2].
    assert (has_shape c nb (npoints t)) as Sc by (rewrite <- E; apply T2; rewrite Ec; now left).
    assert (tile_ok (Tile (t_file t) (t_idx t) (t_raw t) [madd c m] (t_level t))) as Tok'.
    { split; [exact T1|]. cbn [t_corr t_idx]. intros d [<-|[]]. rewrite E. change (npoints _) with (npoints t). now apply madd_shape. }
    split; [repeat split|]. split.
    { split; [exact Tok'|]. split; [exact E|]. split; [exact L|]. split; [reflexivity|exact N]. }
    intros b p Hb Hp. assert (tile_ok t) as Tok by (split; [exact T1|exact T2]). unfold uw_phase.
    rewrite (uw_at _ Tok'), (uw_at _ Tok) by (cbn [t_idx]; rewrite ?E; assumption).
    cbn [t_level t_corr t_raw]. rewrite L, Ec. cbn [firstn map]. unfold sumQ. cbn [fold_right].
    rewrite (at_madd _ _ nb (npoints t)) by auto. ring.
  Qed.

  Lemma compress_keep t : ready nb t -> compress_corrections t = Ok t.
  Proof using.
    intros (_ & _ & _ & C & _). unfold compress_corrections. destruct t as [a b c l d]. cbn [t_corr t_file t_idx t_raw t_level] in *.
    destruct l as [|x [|]]; try discriminate. reflexivity.
  Qed.

  Lemma map_res_nth_iff {A B} (g : A -> res B) l bs da db : map_res g l = Ok bs <->
    length bs = length l /\ forall i, (i < length l)%nat -> g (nth i l da) = Ok (nth i bs db).
  Proof using.
    split; [intros H; apply map_res_nth in H as [L K]; auto|]. revert bs. induction l as [|a l IH]; intros [|b bs] [L K]; try discriminate; [auto|].
    cbn. pose proof (K O ltac:(cbn; lia)) as K0. cbn in K0. rewrite K0. cbn. rewrite (IH bs); [auto|]. split; [cbn in L; lia|].
    intros i Hi. apply (K (S i)). cbn; lia.
  Qed.

  (** The result of a pass, tile by tile. *)
  Lemma pass_ok ts order degree ts' : recorded f ts -> (forall t, In t ts -> ready nb t) ->
    Permutation order (seq 0 (length ts)) ->
    adjust_pass cg ilu triangles order f (om ts) ts degree = Ok ts' ->
    all_kept ts ts' /\ (forall t, In t ts' -> ready nb t) /\
    forall i, (i < length ts)%nat -> exists o, delta cg ilu triangles f (om ts) degree ts i = Ok o /\
      forall b p, (b < nb)%nat -> (p < npoints (tl ts i))%nat ->
        at_ (uw_phase (tl ts' i)) b p == at_ (uw_phase (tl ts i)) b p + match o with Some m => at_ m b p | None => 0 end.
  Proof using.
    intros Hd Hr P H. unfold adjust_pass in H. destruct (fold_res _ ts order) as [ts1|] eqn:Ef; [|discriminate]. cbn [bind] in H.
    assert (Forall2 same_view ts ts) as V by (clear; induction ts; constructor; auto using same_view_refl).
    assert (Forall active ts) as Ha by (apply Forall_forall; intros t I; now apply ready_active, Hr).
    apply (visit cg ilu triangles f (om ts) degree ts) in Ef as (D & L & N); auto;
      [|eapply Permutation_NoDup; [apply Permutation_sym; exact P|apply seq_NoDup]].
    assert (forall i, (i < length ts)%nat -> In i order) as Hin.
    { intros i Hi. eapply Permutation_in; [apply Permutation_sym; exact P|]. apply in_seq. lia. }
    apply (map_res_nth_iff _ _ _ dtile dtile) in H as [L' K].
    assert (forall i, (i < length ts)%nat -> exists o, delta cg ilu triangles f (om ts) degree ts i = Ok o /\
      kept (tl ts i) (tl ts' i) /\ ready nb (tl ts' i) /\
      forall b p, (b < nb)%nat -> (p < npoints (tl ts i))%nat ->
        at_ (uw_phase (tl ts' i)) b p == at_ (uw_phase (tl ts i)) b p + match o with Some m => at_ m b p | None => 0 end) as Hi.
    { intros i Bi. destruct (D i (Hin i Bi)) as (o & Eo). exists o. split; [auto|].
      specialize (N i). destruct (in_dec _ i order) as [_|Ni]; [|exfalso; apply Ni, Hin, Bi]. rewrite Eo in N.
      assert (ready nb (tl ts i)) as Ri by (apply Hr, nth_In, Bi).
      specialize (K i ltac:(lia)). rewrite N in K. destruct o as [m|]; cbn [put_delta] in K.
      - pose proof (delta_shape cg ilu triangles f ts nb degree Hd Hr i m Bi Eo) as Sm. destruct (compress_push _ m Ri Sm) as (t' & E & K1 & K2 & K3).
        rewrite E in K. injection K as <-. auto.
      - rewrite compress_keep in K by auto. injection K as <-. split; [repeat split|]. split; [auto|]. intros b p _ _. ring. }
    split; [|split].
    - split; [lia|]. intros i. destruct (Nat.lt_ge_cases i (length ts)) as [B|B].
      + destruct (Hi i B) as (o & _ & K1 & _). exact K1.
      + rewrite (nth_overflow ts), (nth_overflow ts') by lia. repeat split.
    - intros t I. apply (In_nth _ _ dtile) in I as (i & Bi & <-). destruct (Hi i ltac:(lia)) as (o & _ & _ & R & _). exact R.
    - intros i Bi. destruct (Hi i Bi) as (o & E & _ & _ & Q). eauto.
  Qed.

  Lemma phase_index ts b x t : (forall t, In t ts -> ready nb t) -> In t (holders ts x) ->
    exists i p, (i < length ts)%nat /\ t = tl ts i /\ point_of (tl ts i) x p /\ phase_at t b x = at_ (uw_phase t) b p.
  Proof using.
    intros Hr I. apply filter_In in I as [I C]. destruct (Hr t I) as (_ & _ & _ & _ & N). apply contains_spec in C as (p & P).
    pose proof (phase_point _ b _ _ N P) as E. apply (In_nth _ _ dtile) in I as (i & Bi & <-). exists i, p. auto.
  Qed.

  (** After a pass of a given degree, pixels shared by at least that many tiles
      have in all of them the average of the phases before the pass. *)
  Lemma pass_average ts order degree ts' : describes f ts -> (forall t, In t ts -> ready nb t) ->
    Permutation order (seq 0 (length ts)) ->
    adjust_pass cg ilu triangles order f (om ts) ts degree = Ok ts' ->
    forall b x t, (b < nb)%nat -> (degree <= length (holders ts x))%nat -> In t (holders ts' x) ->
      phase_at t b x == average_at ts b x.
  Proof using.
    intros [Hd Hcp] Hr P H b x t Hb Hx I. apply pass_ok in H as ([L K] & Hr' & Hv); auto.
    destruct (phase_index ts' b x t Hr' I) as (i & p & Bi & -> & Pp & ->). rewrite L in Bi.
    destruct (Hv i Bi) as (o & Eo & Q). assert (point_of (tl ts i) x p) as Pp' by (unfold point_of in *; rewrite <- (kept_coords _ _ (K i)); exact Pp).
    pose proof (point_lt _ _ _ Pp') as Pl. rewrite Q by auto.
    pose proof (delta_ok cg ilu triangles f ts nb degree Hd Hr Hcp i o Bi Eo) as Ho. destruct o as [m|].
    - destruct Ho as (_ & Ho & _). rewrite (Ho x p Pp' Hx b Hb). ring.
    - assert (contains (tl ts i) x = true) as C by (apply contains_spec; eauto). specialize (Ho x C). unfold shared_count in Ho. lia.
  Qed.

  (** Agreeing tiles are left alone. *)
  Lemma average_same l v : l <> [] -> (forall u, In u l -> u == v) -> average l == v.
  Proof using.
    intros N H. unfold average. assert (sumQ l == inject_Z (Z.of_nat (length l)) * v) as ->.
    { clear N. induction l as [|u l IH]; [cbn; ring|]. change (sumQ (u :: l)) with (u + sumQ l). rewrite IH by (intros; apply H; now right).
      assert (u == v) as Eu by (apply H; now left). cbn [length]. rewrite Eu. rewrite Nat2Z.inj_succ, <- Z.add_1_r, inject_Z_plus. ring. }
    field. intros E. apply (proj1 (inject_Z_eq_iff _ 0%Z)) in E. destruct l; [contradiction|]. cbn [length] in E. lia.
  Qed.

  Lemma pass_fixed ts order degree ts' : describes f ts -> (forall t, In t ts -> ready nb t) ->
    Permutation order (seq 0 (length ts)) -> agree nb ts ->
    adjust_pass cg ilu triangles order f (om ts) ts degree = Ok ts' ->
    forall i b p, (i < length ts)%nat -> (b < nb)%nat -> (p < npoints (tl ts i))%nat ->
      at_ (uw_phase (tl ts' i)) b p == at_ (uw_phase (tl ts i)) b p.
  Proof using.
    intros [Hd Hcp] Hr P Ha H i b p Bi Hb Hp. apply pass_ok in H as ([L K] & Hr' & Hv); auto.
    destruct (Hv i Bi) as (o & Eo & Q). rewrite Q by auto.
    pose proof (delta_ok cg ilu triangles f ts nb degree Hd Hr Hcp i o Bi Eo) as Ho. destruct o as [m|]; [|ring].
    destruct Ho as (_ & _ & Ho). rewrite Ho; auto; [ring|]. clear b p Hb Hp Q. intros x p Pp _ b Hb.
    assert (ready nb (tl ts i)) as (_ & _ & _ & _ & N) by (apply Hr, nth_In, Bi).
    assert (In (tl ts i) (holders ts x)) as I.
    { apply filter_In. split; [apply nth_In, Bi|]. apply contains_spec. eauto. }
    rewrite <- (phase_point _ _ _ _ N Pp). unfold average_at. apply average_same.
    - destruct (holders ts x); [destruct I|discriminate].
    - intros u Iu. apply in_map_iff in Iu as (t & <- & It). now apply Ha.
  Qed.

  Lemma degrees_last m : (2 <= m)%nat -> degrees m = rev (seq 3 (m - 2)) ++ [2%nat].
  Proof using. intros H. unfold degrees. replace (m - 1)%nat with (S (m - 2)) by lia. reflexivity. Qed.

  Lemma pass_total order d ts : recorded f ts -> (forall t, In t ts -> ready nb t) -> Permutation order (seq 0 (length ts)) ->
    (forall i, (i < length ts)%nat -> exists o, delta cg ilu triangles f (map (neighbours f) (seq 0 (length ts))) d ts i = Ok o) ->
    exists ts1, adjust_pass cg ilu triangles order f (map (neighbours f) (seq 0 (length ts))) ts d = Ok ts1.
  Proof using.
      intros Hd Hr P D. fold (om ts) in D.
      unfold adjust_pass.
      assert (Forall2 same_view ts ts) as V by (clear; induction ts; constructor; auto using same_view_refl).
      assert (Forall active ts) as Ha by (apply Forall_forall; intros t I; now apply ready_active, Hr).
      assert (NoDup (order)) as Nd by (eapply Permutation_NoDup; [apply Permutation_sym, P|apply seq_NoDup]).
      set (ts1 := map (fun i => put_delta (tl ts i) (delta cg ilu triangles f (om ts) d ts i)) (seq 0 (length ts))).
      assert (fold_res (adjust_tile cg ilu triangles f (om ts) d) ts (order) = Ok ts1) as Ef.
      { apply (visit cg ilu triangles f (om ts) d ts); auto. split; [|split].
        - intros i I. apply D. eapply Permutation_in in I; [|exact P]. apply in_seq in I. lia.
        - unfold ts1. now rewrite map_length, seq_length.
        - intros i. destruct (in_dec _ i (order)) as [I|I].
          + eapply Permutation_in in I; [|exact P]. apply in_seq in I. unfold ts1.
            rewrite (map_nth' _ _ _ O) by (rewrite seq_length; lia). rewrite seq_nth by lia. reflexivity.
          + rewrite !nth_overflow; auto.
            * destruct (Nat.lt_ge_cases i (length ts)) as [B|B]; [|auto]. exfalso. apply I.
              eapply Permutation_in; [apply Permutation_sym, P|]. apply in_seq. lia.
            * unfold ts1. rewrite map_length, seq_length. destruct (Nat.lt_ge_cases i (length ts)) as [B|B]; [|auto]. exfalso. apply I.
              eapply Permutation_in; [apply Permutation_sym, P|]. apply in_seq. lia. }
      fold (om ts). rewrite Ef. cbn [bind].
      assert (forall i, (i < length ts)%nat -> exists t', compress_corrections (tl ts1 i) = Ok t') as Hc.
      { intros i Bi. unfold ts1. rewrite (map_nth' _ _ _ O) by (rewrite seq_length; lia). rewrite seq_nth by lia. cbn [Nat.add].
        destruct (D i Bi) as (o & Eo). rewrite Eo. assert (ready nb (tl ts i)) as Ri by (apply Hr, nth_In, Bi).
        destruct o as [mm|]; cbn [put_delta].
        - pose proof (delta_shape cg ilu triangles f ts nb d Hd Hr i mm Bi Eo) as Sm. destruct (compress_push _ mm Ri Sm) as (t' & E & _). eauto.
        - rewrite compress_keep; eauto. }
      assert (length ts1 = length ts) as L1 by (unfold ts1; now rewrite map_length, seq_length).
      clearbody ts1. rewrite <- L1 in Hc. clear -Hc. induction ts1 as [|t ts1 IH]; [now exists []|].
      destruct (Hc O ltac:(cbn; lia)) as (t' & E). cbn in E. destruct IH as (l & El).
      - intros i Bi. apply (Hc (S i)). cbn; lia.
      - exists (t' :: l). cbn. now rewrite E, El.
  Qed.

  Variable orders : nat -> list nat.

  (** Facts that hold between the passes. *)
  Lemma passes_ok l : forall ts ts', recorded f ts -> (forall t, In t ts -> ready nb t) ->
    (forall d, Permutation (orders d) (seq 0 (length ts))) ->
    fold_res (fun ts d => adjust_pass cg ilu triangles (orders d) f (map (neighbours f) (seq 0 (length ts))) ts d) ts l = Ok ts' ->
    all_kept ts ts' /\ (forall t, In t ts' -> ready nb t).
  Proof using.
    induction l as [|d l IH]; intros ts ts' Hd Hr P H.
    - cbn in H. injection H as <-. split; [apply all_kept_refl|auto].
    - cbn [fold_res] in H. destruct (adjust_pass _ _ _ _ _ _ _ _) as [ts1|] eqn:E; [|discriminate]. cbn [bind] in H.
      pose proof E as E0. apply pass_ok in E as (K & Hr1 & _); auto.
      apply IH in H as [K' Hr']; auto.
      + split; [eapply all_kept_trans; eauto|auto].
      + eapply recorded_kept; eauto.
      + intros d'. destruct K as [-> _]. auto.
  Qed.

  Lemma pass_omap (ts : list tile) l : forall acc : list tile, length acc = length ts ->
    (forall d (acc acc' : list tile), adjust_pass cg ilu triangles (orders d) f (map (neighbours f) (seq 0 (length ts))) acc d = Ok acc' -> length acc = length ts -> length acc' = length ts) ->
    fold_res (fun a d => adjust_pass cg ilu triangles (orders d) f (map (neighbours f) (seq 0 (length ts))) a d) acc l =
    fold_res (fun a d => adjust_pass cg ilu triangles (orders d) f (map (neighbours f) (seq 0 (length a))) a d) acc l.
  Proof using.
    intros acc L H. revert acc L. induction l as [|d l IH]; intros acc L; [auto|]. cbn [fold_res]. rewrite L.
    destruct (adjust_pass _ _ _ _ _ _ acc d) as [acc'|] eqn:E; [|auto]. cbn [bind]. apply IH. eapply H; eauto.
  Qed.

  Lemma adjust_tile_length omap d ts i ts' : adjust_tile cg ilu triangles f omap d ts i = Ok ts' -> length ts' = length ts.
  Proof using.
    rewrite adjust_delta. destruct (delta _ _ _ _ _ _ _ _) as [o|]; [|discriminate]. cbn. intros E. injection E as <-.
    destruct o; [apply upd_length|auto].
  Qed.

  Lemma adjust_pass_length omap d order ts ts' : adjust_pass cg ilu triangles order f omap ts d = Ok ts' -> length ts' = length ts.
  Proof using.
    unfold adjust_pass. destruct (fold_res _ ts order) as [ts1|] eqn:E; [|discriminate]. cbn [bind]. intros H.
    apply map_res_nth in H as [-> _]. revert ts E. induction order as [|i order IH]; intros ts E; cbn in E; [now injection E as <-|].
    destruct (adjust_tile _ _ _ _ _ _ ts i) as [ts2|] eqn:E2; [|discriminate]. cbn [bind] in E.
    rewrite (IH _ E). eapply adjust_tile_length; eauto.
  Qed.

  Variables (ts : list tile) (omap : list (list nat)).
  Hypothesis Hd : recorded f ts.
  Hypothesis Hr : forall t, In t ts -> ready nb t.
  Hypothesis Hom : overlap_map f = Ok omap.
  Hypothesis Hord : forall d, Permutation (orders d) (seq 0 (length ts)).

  Lemma adjust_fold m : adjust_tiles_in cg ilu triangles orders f omap m ts =
    fold_res (fun a d => adjust_pass cg ilu triangles (orders d) f (map (neighbours f) (seq 0 (length a))) a d) ts (degrees m).
  Proof using Hd Hom.
    rewrite (overlap_map_ok f ts Hd) in Hom. injection Hom as <-. unfold adjust_tiles_in. apply pass_omap; [auto|].
    intros d acc acc' E L. apply adjust_pass_length in E. lia.
  Qed.

  Lemma adjust_kept m ts' : adjust_tiles_in cg ilu triangles orders f omap m ts = Ok ts' ->
    all_kept ts ts' /\ (forall t, In t ts' -> ready nb t).
  Proof using Hd Hom Hr Hord. rewrite adjust_fold. now apply passes_ok. Qed.

  Lemma adjust_average m ts' : complete f ts -> (2 <= m)%nat -> adjust_tiles_in cg ilu triangles orders f omap m ts = Ok ts' ->
    exists ts0, all_kept ts ts0 /\ forall b x t, (b < nb)%nat -> (2 <= length (holders ts x))%nat -> In t (holders ts' x) ->
      phase_at t b x == average_at ts0 b x.
  Proof using Hd Hom Hr Hord.
    intros Hcp Hm. rewrite adjust_fold, (degrees_last m Hm), fold_res_app. intros H.
    destruct (fold_res _ ts _) as [ts0|] eqn:E; [|discriminate]. cbn [bind fold_res] in H.
    destruct (adjust_pass _ _ _ _ _ _ ts0 2) as [ts1|] eqn:E2; [|discriminate]. cbn [bind] in H. injection H as <-.
    apply passes_ok in E as [K Hr0]; auto. exists ts0. split; [auto|]. intros b x t Hb Hx I.
    apply (pass_average ts0 (orders 2) 2 ts1); auto.
    - eapply describes_kept; [eauto|]. split; auto.
    - destruct K as [-> _]. apply Hord.
    - rewrite (holders_length ts ts0 x K). exact Hx.
  Qed.

  Lemma passes_fixed l : forall ts ts', describes f ts -> (forall t, In t ts -> ready nb t) ->
    (forall d, Permutation (orders d) (seq 0 (length ts))) -> agree nb ts ->
    fold_res (fun ts d => adjust_pass cg ilu triangles (orders d) f (map (neighbours f) (seq 0 (length ts))) ts d) ts l = Ok ts' ->
    forall i b p, (i < length ts)%nat -> (b < nb)%nat -> (p < npoints (tl ts i))%nat ->
      at_ (uw_phase (tl ts' i)) b p == at_ (uw_phase (tl ts i)) b p.
  Proof using.
    clear Hd Hr Hom Hord ts omap. induction l as [|d l IH]; intros ts ts' Hd Hr P Ha H i b p Bi Hb Hp.
    - cbn in H. injection H as <-. reflexivity.
    - cbn [fold_res] in H. destruct (adjust_pass _ _ _ _ _ _ _ _) as [ts1|] eqn:E; [|discriminate]. cbn [bind] in H.
      pose proof E as E0. apply pass_ok in E as (K & Hr1 & _); auto; [|apply Hd].
      assert (forall i b p, (i < length ts)%nat -> (b < nb)%nat -> (p < npoints (tl ts i))%nat ->
        at_ (uw_phase (tl ts1 i)) b p == at_ (uw_phase (tl ts i)) b p) as F by (eapply pass_fixed; eauto).
      rewrite <- (F i b p) by auto. destruct K as [L K]. apply (IH ts1 ts'); auto; try lia.
      + eapply describes_kept; eauto. split; auto.
      + intros d'. rewrite L. auto.
      + intros b' x t t' Hb' I I'. destruct (phase_index ts1 b' x t Hr1 I) as (j & q & Bj & -> & Pj & ->).
        destruct (phase_index ts1 b' x t' Hr1 I') as (j' & q' & Bj' & -> & Pj' & ->). rewrite L in Bj, Bj'.
        unfold point_of in Pj, Pj'. rewrite (kept_coords _ _ (K _)) in Pj. rewrite (kept_coords _ _ (K _)) in Pj'.
        rewrite !F by (auto; eapply point_lt; eauto).
        assert (ready nb (tl ts j)) as (_ & _ & _ & _ & N) by (apply Hr, nth_In, Bj).
        assert (ready nb (tl ts j')) as (_ & _ & _ & _ & N') by (apply Hr, nth_In, Bj').
        rewrite <- (phase_point _ _ _ _ N Pj), <- (phase_point _ _ _ _ N' Pj').
        apply Ha; auto; apply filter_In; (split; [now apply nth_In|]); apply contains_spec; eauto.
      + unfold npoints. now rewrite (kept_coords _ _ (K i)).
  Qed.

  Lemma adjust_fixed m ts' : complete f ts -> agree nb ts -> adjust_tiles_in cg ilu triangles orders f omap m ts = Ok ts' ->
    forall i b p, (i < length ts)%nat -> (b < nb)%nat -> (p < npoints (tl ts i))%nat ->
      at_ (uw_phase (tl ts' i)) b p == at_ (uw_phase (tl ts i)) b p.
  Proof using Hd Hom Hr Hord. intros Hcp Ha. rewrite adjust_fold. apply passes_fixed; auto. now split. Qed.

  Lemma adjust_total m : (forall i, (i < length ts)%nat -> exists lap, tile_laplacian triangles (tl ts i) = Ok lap /\
      is_square lap = true /\ length lap = npoints (tl ts i)) -> (forall a, a <> [] -> ilu a = true) ->
    (ilu [] = true \/ forall i, (i < length ts)%nat -> own_pixel ts i) ->
    exists ts', adjust_tiles_in cg ilu triangles orders f omap m ts = Ok ts'.
  Proof using Hd Hom Hr Hord.
    rewrite adjust_fold. assert (forall d, In d (degrees m) -> (2 <= d)%nat) as Hdeg by (unfold degrees; intros d I; apply in_rev, in_seq in I; lia).
    revert Hdeg. generalize (degrees m). intros l Hdeg. clear Hom. revert Hd Hr Hord. revert ts.
    induction l as [|d l IH]; intros ts Hd Hr Hord Hl Hi Hown; [cbn; eauto|]. cbn [fold_res].
    assert (exists ts1, adjust_pass cg ilu triangles (orders d) f (map (neighbours f) (seq 0 (length ts))) ts d = Ok ts1) as (ts1 & E).
    { apply pass_total; auto. intros i Bi. destruct (Hl i Bi) as (lap & E1 & E2 & E3). eapply delta_total; eauto.
      destruct Hown as [H0|Hown]; [now left|right]. split; [apply Hdeg; now left|auto]. }
    rewrite E. cbn [bind]. apply pass_ok in E as ([L K] & Hr1 & _); auto. apply IH; auto.
    - intros d' I. apply Hdeg. now right.
    - eapply recorded_kept; eauto. split; auto.
    - intros d'. rewrite L. auto.
    - intros i Bi. rewrite L in Bi. destruct (Hl i Bi) as (lap & E1 & E2 & E3). exists lap. unfold tile_laplacian, npoints in *.
      now rewrite (kept_coords _ _ (K i)).
    - destruct Hown as [H0|Hown]; [now left|right]. intros i Bi. rewrite L in Bi. unfold own_pixel in *. cbv beta zeta in *. fold dtile in *. destruct (Hown i Bi) as (x & C & Hx). exists x.
      rewrite (kept_contains _ _ _ (K i)). split; [exact C|]. intros j Bj Nj. rewrite (kept_contains _ _ _ (K j)). apply Hx; lia.
  Qed.
End Passes.

Lemma filter_le {A} (p : A -> bool) l : (length (filter p l) <= length l)%nat.
Proof. induction l as [|a l IH]; cbn; [lia|]. destruct (p a); cbn; lia. Qed.

Lemma get_max_degree_ok cs sh m : get_max_degree cs sh = Ok m -> (length cs < 256)%nat ->
  forall x, In x (concat cs) -> (length (filter (fun c => existsb (point_eqb x) c) cs) <= m)%nat.
Proof.
  unfold get_max_degree. destruct (forallb (forallb (in_shape sh)) cs) eqn:Ef; [|discriminate]. cbn [negb].
  destruct (_ =? 0)%Z; [discriminate|]. intros E L x I.
  apply (f_equal (fun r => match r with Ok k => k | Err _ => O end)) in E. cbv beta iota in E. subst m.
  rewrite forallb_forall in Ef. apply in_concat in I as (c & Ic & Ix). specialize (Ef c Ic). rewrite forallb_forall in Ef. specialize (Ef x Ix).
  unfold in_shape in Ef. set (g := fun p => Nat.modulo (length (filter (fun c => existsb (point_eqb p) c) cs)) 256).
  assert (length (filter (fun c => existsb (point_eqb x) c) cs) = g x) as ->.
  { unfold g. rewrite Nat.mod_small; [auto|]. pose proof (filter_le (fun c => existsb (point_eqb x) c) cs). lia. }
  assert (In (g x) (map g (concat (pixels sh)))) as Ig.
  { apply in_map. apply in_concat. unfold pixels.
    exists (map (fun c => (fst x, Z.of_nat c)) (seq 0 (Z.to_nat (snd sh)))). split.
    - apply in_map_iff. exists (Z.to_nat (fst x)). split; [|apply in_seq; lia]. apply map_ext. intros a. f_equal. lia.
    - apply in_map_iff. exists (Z.to_nat (snd x)). split; [|apply in_seq; lia]. destruct x; cbn in *. f_equal; lia. }
  revert Ig. fold g. generalize (map g (concat (pixels sh))). intros l Ig.
  pose proof (proj1 (list_max_le l (list_max l)) (le_n _)) as F. rewrite Forall_forall in F. now apply F.
Qed.
