(** Merging the tiles into rasters. *)
From Verif Require Import Base BaseLemmas PoolProofs GraphModel TileModel OverlapModel BulkModel BulkProofs
  DirichletModel MergeModel MergeSpec TileStateProofs AdjustProofs.
From Coq Require Import List ZifyBool Lqa Permutation.
Import ListNotations.
Set Default Goal Selector "!".
Local Open Scope Q_scope.

(** ** Writing pixels *)
Lemma scatter_out {A} ps : forall (vals : list A) img q, ~ In q ps -> scatter img ps vals q = img q.
Proof.
  induction ps as [|p ps IH]; intros [|v vals] img q N; try reflexivity.
  change (scatter img (p :: ps) (v :: vals)) with (scatter (set_pixel img p v) ps vals).
  rewrite IH by (intros I; apply N; now right). unfold set_pixel. destruct (point_eqb q p) eqn:E; [|auto].
  apply point_eqb_spec in E as ->. exfalso. apply N. now left.
Qed.

Lemma scatter_in {A} ps : forall (vals : list A) img q k d, NoDup ps -> length vals = length ps ->
  nth_error ps k = Some q -> scatter img ps vals q = nth k vals d.
Proof.
  induction ps as [|p ps IH]; intros [|v vals] img q k d Nd L H; try discriminate; [destruct k; discriminate|].
  change (scatter img (p :: ps) (v :: vals)) with (scatter (set_pixel img p v) ps vals).
  apply NoDup_cons_iff in Nd as [N Nd]. destruct k as [|k]; cbn in H.
  - injection H as ->. rewrite scatter_out by auto. unfold set_pixel. now rewrite point_eqb_refl.
  - cbn in L. cbn [nth]. apply IH; auto.
Qed.

Lemma not_contains t q : contains t q = false -> ~ In q (coords t).
Proof.
  intros H I. apply In_nth_error in I as (p & P). assert (contains t q = true) by (apply contains_spec; eauto). congruence.
Qed.

(** Writing a tile. *)
Lemma scatter_tile {A} t (vals : list A) img q d : NoDup (coords t) -> length vals = npoints t ->
  scatter img (coords t) vals q = if contains t q then nth (position q (coords t)) vals d else img q.
Proof.
  intros Nd L. destruct (contains t q) eqn:C.
  - apply contains_spec in C as (p & P). rewrite (position_spec _ _ _ Nd P). now apply scatter_in.
  - apply scatter_out. now apply not_contains.
Qed.

Lemma position_lt t q : NoDup (coords t) -> contains t q = true ->
  (position q (coords t) < npoints t)%nat /\ nth_error (coords t) (position q (coords t)) = Some q.
Proof.
  intros Nd C. apply contains_spec in C as (p & P). rewrite (position_spec _ _ _ Nd P). split; [|exact P].
  eapply point_lt; eauto.
Qed.

Lemma nth_map_combine {A B C} (g : A * B -> C) l l' k a b d : nth_error l k = Some a -> nth_error l' k = Some b ->
  nth k (map g (combine l l')) d = g (a, b).
Proof.
  revert l' k. induction l as [|x l IH]; intros [|y l'] [|k] H H'; try discriminate; cbn in *.
  - congruence.
  - now apply IH.
Qed.

Section Band.
  Variables (bands : list nat) (ind : nat).
  Hypothesis Hind : (ind < length bands)%nat.

  Lemma row_length t level : mergeable bands t -> length (nth ind (get_uw_phase t level) []) = npoints t.
  Proof using Hind.
    intros (Ht & E & _). pose proof (uw_shape t Ht level) as S. rewrite E in S. eapply shape_nth; eauto.
  Qed.

  Lemma raw_phase_at t q : mergeable bands t -> contains t q = true ->
    nth (position q (coords t)) (nth ind (raw_uw_phase t) []) 0 == raw_at t ind q.
  Proof using Hind.
    intros (Ht & E & _ & Nd) C. unfold raw_uw_phase. change (nth _ (nth ind ?m []) 0) with (at_ m ind (position q (coords t))).
    rewrite (uw_at t Ht) by (rewrite ?E; auto; now apply position_lt). cbn [firstn map]. unfold sumQ. cbn [fold_right]. unfold raw_at. ring.
  Qed.

  (** One tile added to the accumulators. *)
  Lemma accumulate_ok t a q : mergeable bands t ->
    let a' := accumulate a (coords t) (nth ind (uw_phase t) []) in
    let d := phase_at t ind q in
    if contains t q
    then a_model a' q = a_model a q + d /\ a_cnt a' q = S (a_cnt a q) /\
         a_min a' q = opt2 qmin d (a_min a q) /\ a_max a' q = opt2 qmax d (a_max a q)
    else a_model a' q = a_model a q /\ a_cnt a' q = a_cnt a q /\ a_min a' q = a_min a q /\ a_max a' q = a_max a q.
  Proof using Hind.
    intros Hm a' d. pose proof Hm as (Ht & E & L1 & Nd).
    set (data := nth ind (uw_phase t) []) in *. assert (length data = npoints t) as Ld by (now apply row_length).
    assert (forall A (img : image A) (f : Q -> A -> A),
      scatter img (coords t) (map (fun pd => f (snd pd) (img (fst pd))) (combine (coords t) data)) q =
      if contains t q then f d (img q) else img q) as K.
    { intros A img f. rewrite (scatter_tile _ _ _ _ (img q)); auto.
      - destruct (contains t q) eqn:C; [|auto]. destruct (position_lt t q Nd C) as [Pl Pn].
        rewrite (nth_map_combine _ _ _ _ q d) with (d := img q); [auto|auto|].
        unfold d, phase_at, at_. fold data. apply nth_error_nth'. lia.
      - rewrite map_length, combine_length, Ld. unfold npoints. lia. }
    unfold a', accumulate. cbn [a_model a_cnt a_min a_max].
    pose proof (K _ (a_model a) (fun d m => m + d)) as K1. pose proof (K _ (a_cnt a) (fun _ k => S k)) as K2.
    cbv beta in K1, K2. rewrite K1, K2, !K. destruct (contains t q); auto.
  Qed.

  Lemma qmin_spec x y : (qmin x y = x \/ qmin x y = y) /\ qmin x y <= x /\ qmin x y <= y.
  Proof using.
    unfold qmin. destruct (Qle_bool x y) eqn:E.
    - apply Qle_bool_iff in E. repeat split; auto. lra.
    - assert (y < x) by (apply Qnot_le_lt; intros H; apply Qle_bool_iff in H; congruence). repeat split; auto; lra.
  Qed.
  Lemma qmax_spec x y : (qmax x y = x \/ qmax x y = y) /\ x <= qmax x y /\ y <= qmax x y.
  Proof using.
    unfold qmax. destruct (Qle_bool y x) eqn:E.
    - apply Qle_bool_iff in E. repeat split; auto. lra.
    - assert (x < y) by (apply Qnot_le_lt; intros H; apply Qle_bool_iff in H; congruence). repeat split; auto; lra.
  Qed.

  Definition phases (ts : list tile) (q : Z * Z) : list Q := map (fun t => phase_at t ind q) (holders ts q).

  (** All tiles added to the accumulators. *)
  Lemma accumulated ts q : (forall t, In t ts -> mergeable bands t) -> forall a,
    let a' := fold_left (fun a t => accumulate a (coords t) (nth ind (uw_phase t) [])) ts a in
    a_model a' q == a_model a q + sumQ (phases ts q) /\
    a_cnt a' q = (a_cnt a q + length (holders ts q))%nat /\
    a_min a' q = fold_left (fun o d => opt2 qmin d o) (phases ts q) (a_min a q) /\
    a_max a' q = fold_left (fun o d => opt2 qmax d o) (phases ts q) (a_max a q).
  Proof using Hind.
    induction ts as [|t ts IH]; intros Hm a a'.
    - cbn in a'. subst a'. unfold phases. cbn. repeat split; auto; try lia. ring.
    - cbn [fold_left] in a'. set (a1 := accumulate a (coords t) (nth ind (uw_phase t) [])) in *.
      destruct (IH (fun t' I => Hm t' (or_intror I)) a1) as (I1 & I2 & I3 & I4). fold a' in I1, I2, I3, I4.
      pose proof (accumulate_ok t a q (Hm t (or_introl eq_refl))) as K. cbn zeta in K. fold a1 in K.
      unfold phases, holders in *. cbn [filter]. destruct (contains t q).
      + destruct K as (K1 & K2 & K3 & K4). cbn [map length fold_left]. rewrite I1, I2, I3, I4, K1, K2, K3, K4.
        repeat split; auto; try lia. unfold sumQ. cbn [fold_right]. ring.
      + destruct K as (K1 & K2 & K3 & K4). rewrite I1, I2, I3, I4, K1, K2, K3, K4. repeat split; auto.
  Qed.

  Lemma fold_min l : forall o, (o <> None \/ l <> []) ->
    exists m, fold_left (fun o d => opt2 qmin d o) l o = Some m /\
      (In m l \/ o = Some m) /\ (forall d, In d l -> m <= d) /\ (forall d, o = Some d -> m <= d).
  Proof using.
    induction l as [|d l IH]; intros o H.
    - destruct o as [m|]; [|destruct H; contradiction]. exists m. cbn. split; [auto|]. split; [auto|]. split; [intros d []|].
      intros d E. injection E as <-. lra.
    - cbn [fold_left]. destruct (IH (opt2 qmin d o)) as (m & E & I & B1 & B2); [left; discriminate|].
      exists m. split; [auto|]. specialize (B2 _ eq_refl). destruct o as [y|]; cbn in *.
      + destruct (qmin_spec d y) as ([E1|E1] & Q1 & Q2).
        * split; [destruct I as [I|I]; [auto|injection I as <-; rewrite E1; auto]|]. split.
          -- intros d' [<-|I']; [lra|auto].
          -- intros d' Ed. injection Ed as <-. lra.
        * split; [destruct I as [I|I]; [auto|injection I as <-; rewrite E1; auto]|]. split.
          -- intros d' [<-|I']; [lra|auto].
          -- intros d' Ed. injection Ed as <-. lra.
      + split; [destruct I as [I|I]; [auto|injection I as <-; auto]|]. split.
        * intros d' [<-|I']; [lra|auto].
        * discriminate.
  Qed.
  Lemma fold_max l : forall o, (o <> None \/ l <> []) ->
    exists m, fold_left (fun o d => opt2 qmax d o) l o = Some m /\
      (In m l \/ o = Some m) /\ (forall d, In d l -> d <= m) /\ (forall d, o = Some d -> d <= m).
  Proof using.
    induction l as [|d l IH]; intros o H.
    - destruct o as [m|]; [|destruct H; contradiction]. exists m. cbn. split; [auto|]. split; [auto|]. split; [intros d []|].
      intros d E. injection E as <-. lra.
    - cbn [fold_left]. destruct (IH (opt2 qmax d o)) as (m & E & I & B1 & B2); [left; discriminate|].
      exists m. split; [auto|]. specialize (B2 _ eq_refl). destruct o as [y|]; cbn in *.
      + destruct (qmax_spec d y) as ([E1|E1] & Q1 & Q2).
        * split; [destruct I as [I|I]; [auto|injection I as <-; rewrite E1; auto]|]. split.
          -- intros d' [<-|I']; [lra|auto].
          -- intros d' Ed. injection Ed as <-. lra.
        * split; [destruct I as [I|I]; [auto|injection I as <-; rewrite E1; auto]|]. split.
          -- intros d' [<-|I']; [lra|auto].
          -- intros d' Ed. injection Ed as <-. lra.
      + split; [destruct I as [I|I]; [auto|injection I as <-; auto]|]. split.
        * intros d' [<-|I']; [lra|auto].
        * discriminate.
  Qed.

  Section Tiles.
    Variable ts : list tile.
    Hypothesis Hm : forall t, In t ts -> mergeable bands t.
    Let a := fold_left (fun a t => accumulate a (coords t) (nth ind (uw_phase t) [])) ts acc0.

    Lemma model_ok q : match holders ts q with
      | [] => band_model a q = None
      | _ => exists v, band_model a q = Some v /\ v == average_at ts ind q end.
    Proof using Hind Hm.
      destruct (accumulated ts q Hm acc0) as (K1 & K2 & _). fold a in K1, K2. cbn [acc0 a_model a_cnt Nat.add] in K1, K2.
      unfold band_model, average_at, average. rewrite K2, map_length. fold (phases ts q). destruct (holders ts q) as [|t l] eqn:E; [reflexivity|].
      cbn [length]. eexists. split; [reflexivity|]. rewrite K1. rewrite Qplus_0_l. reflexivity.
    Qed.

    Lemma diff_ok q :
      ((length (holders ts q) < 2)%nat -> band_diff a q = None) /\
      ((2 <= length (holders ts q))%nat -> exists hi lo, band_diff a q = Some (hi - lo) /\
         In hi (phases ts q) /\ In lo (phases ts q) /\ forall d, In d (phases ts q) -> lo <= d <= hi).
    Proof using Hind Hm.
      destruct (accumulated ts q Hm acc0) as (_ & K2 & K3 & K4). fold a in K2, K3, K4. cbn [acc0 a_min a_max a_cnt Nat.add] in K2, K3, K4.
      unfold band_diff. rewrite K2, K3, K4. split.
      - intros L. destruct (Nat.ltb_spec (length (holders ts q)) 2); [auto|lia].
      - intros L. destruct (Nat.ltb_spec (length (holders ts q)) 2); [lia|].
        assert (phases ts q <> []) as N by (unfold phases; destruct (holders ts q); [cbn in L; lia|discriminate]).
        destruct (fold_min (phases ts q) None (or_intror N)) as (lo & -> & [I1|I1] & B1 & _); [|discriminate].
        destruct (fold_max (phases ts q) None (or_intror N)) as (hi & -> & [I2|I2] & B2 & _); [|discriminate].
        exists hi, lo. repeat split; auto.
    Qed.

    Lemma written model l q : (forall t, In t l -> mergeable bands t) -> forall img,
      let arr := fold_left (fun r t => write_around model r (coords t) (nth ind (raw_uw_phase t) [])) l img in
      (holders l q = [] -> arr q = img q) /\
      (forall t l', holders l q = l' ++ [t] ->
         exists r, r == raw_at t ind q /\ arr q = match model q with Some m => Some (wrap_around m r) | None => None end).
    Proof using Hind.
      induction l as [|t l IH]; intros Hl img arr.
      - split; [reflexivity|]. intros t l' H. destruct l'; discriminate.
      - cbn [fold_left] in arr. set (img1 := write_around model img (coords t) (nth ind (raw_uw_phase t) [])) in *.
        destruct (IH (fun t' I => Hl t' (or_intror I)) img1) as [I1 I2]. fold arr in I1, I2.
        pose proof (Hl t (or_introl eq_refl)) as Ht. pose proof Ht as (Tok & E & L1 & Nd).
        assert (length (nth ind (raw_uw_phase t) []) = npoints t) as Lr by now apply row_length.
        assert (img1 q = if contains t q
          then match model q with Some m => Some (wrap_around m (nth (position q (coords t)) (nth ind (raw_uw_phase t) []) 0)) | None => None end
          else img q) as K.
        { unfold img1, write_around. rewrite (scatter_tile _ _ _ _ None); auto.
          - destruct (contains t q) eqn:C; [|auto]. destruct (position_lt t q Nd C) as [Pl Pn].
            rewrite (nth_map_combine _ _ _ _ q (nth (position q (coords t)) (nth ind (raw_uw_phase t) []) 0)); [auto|auto|].
            apply nth_error_nth'. lia.
          - rewrite map_length, combine_length, Lr. unfold npoints. lia. }
        unfold holders in *. cbn [filter]. destruct (contains t q) eqn:C.
        + split; [discriminate|]. intros t0 l' H. destruct (filter (fun t => contains t q) l) as [|t1 l1] eqn:Ef.
          * destruct l' as [|? [|]]; try discriminate. injection H as <-. rewrite I1 by auto. rewrite K.
            eexists. split; [|reflexivity]. now apply raw_phase_at.
          * destruct l' as [|t2 l']; [discriminate|]. cbn in H. injection H as <- H. eapply I2; eauto.
        + split; [intros H; rewrite I1 by auto; exact K|]. exact I2.
    Qed.
  End Tiles.
End Band.

(** ** Rasters *)
Lemma tabulate_shape {A} sh (img : image A) : length (tabulate sh img) = Z.to_nat (fst sh) /\
  forall row, In row (tabulate sh img) -> length row = Z.to_nat (snd sh).
Proof.
  unfold tabulate, pixels. split; [now rewrite !map_length, seq_length|]. intros row I.
  apply in_map_iff in I as (r & <- & I). apply in_map_iff in I as (k & <- & _). now rewrite !map_length, seq_length.
Qed.

Lemma tabulate_pixel sh (img : image (option Q)) x : in_shape sh x = true -> pixel (tabulate sh img) x = img x.
Proof.
  unfold in_shape. intros H. unfold pixel, tabulate, pixels. rewrite (map_nth' _ _ _ []) by (rewrite map_length, seq_length; lia).
  rewrite (map_nth' _ _ _ O) by (rewrite seq_length; lia).
  rewrite (map_nth' _ _ _ (0, 0)%Z) by (rewrite map_length, seq_length; lia).
  rewrite (map_nth' _ _ _ O) by (rewrite seq_length; lia). rewrite !seq_nth by lia. f_equal. destruct x as [r c]. cbn in *. f_equal; lia.
Qed.

Lemma index_of_nth l : forall k x, NoDup l -> nth_error l k = Some x -> index_of x l = Some k.
Proof.
  induction l as [|a l IH]; intros [|k] x Nd H; try discriminate; cbn in H.
  - injection H as ->. cbn. now rewrite Nat.eqb_refl.
  - apply NoDup_cons_iff in Nd as [N Nd]. cbn. destruct (Nat.eqb_spec a x) as [->|_].
    + exfalso. apply N. eapply nth_error_In; eauto.
    + now rewrite (IH _ _ Nd H).
Qed.

Lemma wrap_around_ok m r : congruent (wrap_around m r) r /\ - (twopi / 2) <= wrap_around m r - m <= twopi / 2.
Proof.
  unfold wrap_around. cbn zeta. pose proof twopi_pos as T. split.
  - exists (- rint ((r - m) / twopi))%Z. rewrite inject_Z_opp. ring.
  - pose proof (rint_bound ((r - m) / twopi)) as B. set (k := rint _) in *.
    assert (r - m == twopi * ((r - m) / twopi)) as E by (field; lra).
    set (z := (r - m) / twopi) in *. assert (m + (r - m) - twopi * inject_Z k - m == twopi * (z - inject_Z k)) as -> by (rewrite E; ring).
    assert (twopi / 2 == twopi * (1 # 2)) as -> by field.
    split.
    + assert (- (twopi * (1 # 2)) == twopi * (- (1 # 2))) as -> by ring. apply Qmult_le_l; lra.
    + apply Qmult_le_l; lra.
Qed.

Lemma wrap_around_comp m m' r r' : m == m' -> r == r' -> wrap_around m r == wrap_around m' r'.
Proof. intros E1 E2. unfold wrap_around. cbn zeta.
  rewrite (rint_comp ((r - m) / twopi) ((r' - m') / twopi)) by (rewrite E1, E2; reflexivity).
  rewrite E1, E2. reflexivity. Qed.

(** The wrapped value depends on the class of the raw phase only, unless it is
    half a cycle from the average. *)
Lemma wrap_around_congruent m r r' : congruent r r' -> ~ half_cycle_tie r m -> wrap_around m r == wrap_around m r'.
Proof.
  intros [k H] N. unfold wrap_around. cbn zeta. pose proof twopi_pos as T.
  assert ((r' - m) / twopi == (r - m) / twopi + inject_Z (- k)) as E.
  { rewrite inject_Z_opp. assert (r' == r - twopi * inject_Z k) as -> by lra. field. lra. }
  rewrite (rint_comp _ _ E). rewrite rint_add_notie.
  - rewrite inject_Z_plus, inject_Z_opp. assert (r' == r - twopi * inject_Z k) as -> by lra. ring.
  - intros (j & J). apply N. exists j. rewrite <- J. field. lra.
Qed.

(** ** Merged bands *)
Lemma merged_total bands ts idx sh k : ts <> [] -> NoDup bands -> (forall t, In t ts -> mergeable bands t) ->
  (forall t x, In t ts -> contains t x = true -> in_shape sh x = true) -> nth_error bands k = Some idx ->
  let a := fold_left (fun a t => accumulate a (coords t) (nth k (uw_phase t) [])) ts acc0 in
  merged_band ts idx sh = Ok
    (tabulate sh (fold_left (fun r t => write_around (band_model a) r (coords t) (nth k (raw_uw_phase t) [])) ts (fun _ => None)),
     tabulate sh (band_diff a), tabulate sh (band_model a)).
Proof.
  intros Ne Nd Hm Hs Hk a. unfold merged_band.
  assert (forallb (fun t => existsb (Nat.eqb idx) (t_idx t)) ts = true) as ->.
  { apply forallb_forall. intros t I. destruct (Hm t I) as (_ & E & _). rewrite E. apply existsb_exists.
    exists idx. split; [eapply nth_error_In; eauto|apply Nat.eqb_refl]. }
  assert (forallb (fun t => (t_level t =? 1)%nat) ts = true) as ->.
  { apply forallb_forall. intros t I. destruct (Hm t I) as (_ & _ & E & _). rewrite E. reflexivity. }
  cbn [negb].
  assert (In (last ts dtile) ts) as Il by (destruct (exists_last Ne) as (l & t & ->); rewrite last_last; apply in_or_app; right; now left).
  destruct (Hm _ Il) as (_ & El & _). fold dtile. rewrite El, (index_of_nth _ _ _ Nd Hk).
  assert (forallb (fun t => forallb (in_shape sh) (coords t)) ts = true) as ->; [|reflexivity].
  apply forallb_forall. intros t I. apply forallb_forall. intros x Ix. apply (Hs t x I). apply In_nth_error in Ix as (p & P).
  apply contains_spec. eauto.
Qed.

Section Merged.
  Variables (bands : list nat) (ts : list tile) (idx k : nat) (sh : Z * Z).
  Hypothesis Nd : NoDup bands.
  Hypothesis Hm : forall t, In t ts -> mergeable bands t.
  Hypothesis Hk : nth_error bands k = Some idx.
  Variables arr diff model : raster.
  Hypothesis H : merged_band ts idx sh = Ok (arr, diff, model).

  Let a := fold_left (fun a t => accumulate a (coords t) (nth k (uw_phase t) [])) ts acc0.

  Lemma merged_values : ts <> [] /\ (forall t x, In t ts -> contains t x = true -> in_shape sh x = true) /\
    arr = tabulate sh (fold_left (fun r t => write_around (band_model a) r (coords t) (nth k (raw_uw_phase t) [])) ts (fun _ => None)) /\
    diff = tabulate sh (band_diff a) /\ model = tabulate sh (band_model a).
  Proof using Nd Hm Hk H.
    assert (ts <> []) as Ne.
    { intros E. pose proof H as H'. rewrite E in H'. cbn in H'. discriminate. }
    assert (forall t x, In t ts -> contains t x = true -> in_shape sh x = true) as Hs.
    { intros t x It C. pose proof H as H'. unfold merged_band in H'. destruct (forallb _ ts); [|discriminate].
      cbn [negb] in H'. destruct (forallb _ ts) in H'; [|discriminate]. cbn [negb] in H'. destruct (index_of _ _); [|discriminate].
      destruct (forallb (fun t => forallb (in_shape sh) (coords t)) ts) eqn:F; [|discriminate].
      rewrite forallb_forall in F. specialize (F t It). rewrite forallb_forall in F. apply F.
      apply contains_spec in C as (p & P). eapply nth_error_In; eauto. }
    split; [auto|]. split; [auto|]. pose proof (merged_total bands ts idx sh k Ne Nd Hm Hs Hk) as E. cbn zeta in E. rewrite H in E.
    injection E as -> -> ->. auto.
  Qed.

  Lemma k_lt : (k < length bands)%nat.
  Proof using Hk. apply nth_error_Some. congruence. Qed.

  Lemma merged_nan x : in_shape sh x = true -> holders ts x = [] -> pixel arr x = None /\ pixel diff x = None /\ pixel model x = None.
  Proof using Nd Hm Hk H.
    intros S E. destruct merged_values as (Ne & Hs & -> & -> & ->). rewrite !tabulate_pixel by auto. split; [|split].
    - destruct (written bands k k_lt (band_model a) ts x Hm (fun _ => None)) as [W _]. now apply W.
    - apply (diff_ok bands k k_lt ts Hm x). rewrite E. cbn. lia.
    - pose proof (model_ok bands k k_lt ts Hm x) as M. rewrite E in M. exact M.
  Qed.

  Lemma merged_pixel x : in_shape sh x = true -> forall l t, holders ts x = l ++ [t] ->
    exists m v, pixel model x = Some m /\ m == average_at ts k x /\
      pixel arr x = Some v /\ v == wrap_around (average_at ts k x) (raw_at t k x).
  Proof using Nd Hm Hk H.
    intros S l t E. destruct merged_values as (Ne & Hs & -> & -> & ->). rewrite !tabulate_pixel by auto.
    pose proof (model_ok bands k k_lt ts Hm x) as M. rewrite E in M. fold a in M.
    assert (exists v, band_model a x = Some v /\ v == average_at ts k x) as (m & Em & Am) by (destruct l; exact M).
    destruct (written bands k k_lt (band_model a) ts x Hm (fun _ => None)) as [_ W]. destruct (W t l E) as (r & Er & Wr).
    rewrite Em in Wr. exists m, (wrap_around m r). split; [auto|]. split; [auto|]. split; [auto|]. now apply wrap_around_comp.
  Qed.

  Lemma merged_diff x : in_shape sh x = true ->
    ((length (holders ts x) < 2)%nat -> pixel diff x = None) /\
    ((2 <= length (holders ts x))%nat -> exists t t', In t (holders ts x) /\ In t' (holders ts x) /\
       pixel diff x = Some (phase_at t k x - phase_at t' k x) /\
       forall u, In u (holders ts x) -> phase_at t' k x <= phase_at u k x <= phase_at t k x).
  Proof using Nd Hm Hk H.
    intros S. destruct merged_values as (Ne & Hs & -> & -> & ->). rewrite !tabulate_pixel by auto.
    destruct (diff_ok bands k k_lt ts Hm x) as [D1 D2]. split; [exact D1|]. intros L. destruct (D2 L) as (hi & lo & E & I1 & I2 & B).
    apply in_map_iff in I1 as (t & <- & I1). apply in_map_iff in I2 as (t' & <- & I2). exists t, t'. split; [auto|]. split; [auto|].
    split; [exact E|]. intros u Iu. apply B. apply in_map_iff. eauto.
  Qed.
End Merged.

Lemma average_perm l l' : Permutation l l' -> average l == average l'.
Proof. intros P. unfold average. now rewrite (sumQ_perm _ _ P), (Permutation_length P). Qed.

Lemma holders_perm ts ts' x : Permutation ts ts' -> Permutation (holders ts x) (holders ts' x).
Proof. apply filter_perm. Qed.

Lemma average_at_perm ts ts' b x : Permutation ts ts' -> average_at ts b x == average_at ts' b x.
Proof. intros P. apply average_perm, Permutation_map. now apply holders_perm. Qed.
