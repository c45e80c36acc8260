(** What merging writes, for any batch size. *)
From Verif Require Import Base BaseLemmas TileModel JsonModel NamesModel OverlapModel BulkModel BulkProofs MergeModel MergeSpec
  AdjustProofs MergeBatchProofs WorkflowModel WorkflowSpec WorkflowProofs WorkflowSteps.
From Coq Require Import List ZifyBool Permutation.
Import ListNotations.
Set Default Goal Selector "!".

Lemma NoDup_app_remove_l {A} (a b : list A) : NoDup (a ++ b) -> NoDup b.
Proof. induction a as [|x a IH]; cbn; intros H; [auto|]. apply NoDup_cons_iff in H. tauto. Qed.
Lemma NoDup_app_remove_r {A} (a b : list A) : NoDup (a ++ b) -> NoDup a.
Proof.
  induction a as [|x a IH]; cbn; intros H; [constructor|]. apply NoDup_cons_iff in H as [H1 H2]. constructor; [|auto].
  intros I. apply H1, in_or_app. auto.
Qed.

(** ** Distinct names *)
Lemma three_in fn n : In n (three fn) <-> n = fn \/ n = diff_filename fn \/ n = model_filename fn.
Proof. unfold three. cbn. firstorder. Qed.

Section Names.
  Variable fnames : list string.
  Hypothesis Nd : NoDup (flat_map three fnames).
  Notation name k := (nth k fnames ""%string).

  Lemma name_in k : (k < length fnames)%nat -> In (name k) fnames.
  Proof. apply nth_In. Qed.
  Lemma three_disjoint i j n : (i < length fnames)%nat -> (j < length fnames)%nat -> In n (three (name i)) -> In n (three (name j)) -> i = j.
  Proof using Nd.
    clear -Nd. revert i j. induction fnames as [|a l IH]; intros i j Hi Hj A B; [cbn in Hi; lia|]. cbn [flat_map] in Nd.
    assert (forall x y, In x (three a) -> In y (flat_map three l) -> x <> y) as D.
    { intros x y X Y ->. clear -Nd X Y. induction (three a) as [|z t IH]; [destruct X|]. cbn in Nd. apply NoDup_cons_iff in Nd as [N1 N2].
      destruct X as [->|X]; [|auto]. apply N1, in_or_app. auto. }
    assert (NoDup (flat_map three l)) as Nl by (eapply NoDup_app_remove_l; eauto).
    assert (forall k, (k < length l)%nat -> In n (three (nth k l ""%string)) -> In n (flat_map three l)) as K.
    { intros k Hk X. apply in_flat_map. exists (nth k l ""%string). split; [now apply nth_In|auto]. }
    destruct i as [|i], j as [|j]; cbn [nth length] in *; auto.
    - exfalso. apply (D n n A); [|auto]. apply (K j); [lia|auto].
    - exfalso. apply (D n n B); [|auto]. apply (K i); [lia|auto].
    - f_equal. apply IH; auto; lia.
  Qed.
  Lemma name_inj i j : (i < length fnames)%nat -> (j < length fnames)%nat -> name i = name j -> i = j.
  Proof using Nd. intros Hi Hj E. apply (three_disjoint i j (name i)); auto; apply three_in; auto. Qed.

  Definition raster_writes (idx : list nat) (outs : list (raster * raster * raster)) : list write :=
    flat_map (fun ko => rasters (name (fst ko)) (snd ko)) (combine idx outs).
  Lemma rasters_names n o : map fst (rasters n o) = three n.
  Proof. destruct o as [[a d] m]. reflexivity. Qed.
  Lemma raster_writes_in idx outs w : In w (raster_writes idx outs) -> exists k, In k idx /\ In (fst w) (three (name k)).
  Proof.
    unfold raster_writes. intros H. apply in_flat_map in H as ([k o] & I & H). exists k. split; [eapply in_combine_l; eauto|].
    cbn [fst snd] in H. rewrite <- (rasters_names _ o). now apply in_map.
  Qed.
  Lemma raster_writes_names idx : forall outs, length outs = length idx ->
    map fst (raster_writes idx outs) = flat_map three (map (fun k => name k) idx).
  Proof.
    unfold raster_writes. induction idx as [|k idx IH]; intros [|o outs] L; try discriminate; [reflexivity|]. cbn [combine flat_map map fst snd].
    rewrite map_app, rasters_names, IH by (cbn in L; lia). reflexivity.
  Qed.
  Lemma picked_nodup idx : NoDup idx -> (forall k, In k idx -> (k < length fnames)%nat) -> NoDup (flat_map three (map (fun k => name k) idx)).
  Proof using Nd.
    induction idx as [|k idx IH]; intros Ni B; [constructor|]. cbn [map flat_map]. apply NoDup_cons_iff in Ni as [N1 N2].
    apply NoDup_app_intro.
    - assert (In (name k) fnames) as I by (apply nth_In, B; now left). generalize dependent (name k). clear -Nd. intros n I. induction fnames as [|a l IH]; [destruct I|]. cbn [flat_map] in Nd.
      destruct I as [->|I]; [eapply NoDup_app_remove_r; eauto|]. apply IH; [eapply NoDup_app_remove_l; eauto|auto].
    - apply IH; [auto|]. intros j I. apply B. now right.
    - intros x X Y. apply in_flat_map in Y as (y & Y & Z). apply in_map_iff in Y as (j & <- & J).
      assert (k = j) as -> by (apply (three_disjoint k j x); auto; apply B; cbn; auto). contradiction.
  Qed.

  (** ** The bands of a batch *)
  Lemma write_bands ts sh : forall idx s ws, NoDup idx -> (forall k, In k idx -> (k < length fnames)%nat) ->
    (forall k, In k idx -> absent s (name k) = true) ->
    run (each (fun i => write_merged_band ts (name i) i sh) idx) s = (ws, Ok tt) <->
    exists outs, map_res (fun i => merged_band ts i sh) idx = Ok outs /\ ws = raster_writes idx outs.
  Proof using Nd.
    induction idx as [|k idx IH]; intros s ws Ni B A; cbn [each map_res].
    - cbn. split; [intros H; injection H as <-; exists []; auto|]. intros (outs & H & ->). injection H as <-. reflexivity.
    - apply NoDup_cons_iff in Ni as [N1 N2].
      assert (run (write_merged_band ts (name k) k sh) s =
        match merged_band ts k sh with Ok o => (rasters (name k) o, Ok tt) | Err x => ([], Err x) end) as W.
      { unfold write_merged_band. rewrite (then_pure _ _ _ _ (run_is_file _ _)), (A k (or_introl eq_refl)). cbn [negb].
        destruct (merged_band ts k sh) as [[[a d] m]|x]; reflexivity. }
      destruct (merged_band ts k sh) as [o|x]; cbn [bind].
      + assert (forall ws2, run (each (fun i => write_merged_band ts (name i) i sh) idx) (apply_writes s (rasters (name k) o)) = (ws2, Ok tt) <->
          exists outs, map_res (fun i => merged_band ts i sh) idx = Ok outs /\ ws2 = raster_writes idx outs) as K.
        { intros ws2. apply IH; [auto|intros j J; apply B; now right|]. intros j J. unfold absent. rewrite apply_notin.
          - apply A. now right.
          - rewrite rasters_names. intros X. assert (k = j) as ->; [|contradiction].
            apply (three_disjoint k j (name j)); [apply B; now left|apply B; now right|auto|apply three_in; auto]. }
        split; intros H.
        * apply then_inv in H as (w1 & u & w2 & H1 & H2 & ->). rewrite W in H1. injection H1 as <- <-. apply K in H2 as (outs & E & ->).
          rewrite E. cbn. exists (o :: outs). auto.
        * destruct H as (outs & E & ->). destruct (map_res _ idx) as [outs'|] eqn:M; [|discriminate]. cbn in E. injection E as <-.
          cbn. eapply then_intro; [exact W|]. apply K. eauto.
      + split; [|intros (outs & E & _); discriminate]. intros H. apply then_inv in H as (w1 & u & w2 & H1 & _). rewrite W in H1. discriminate.
  Qed.
End Names.

(** ** Batches *)
Lemma increasing_nodup l : increasing l = true -> NoDup l /\ forall a, hd_error l = Some a -> forall b, In b (tl l) -> (a < b)%nat.
Proof.
  induction l as [|a l IH]; intros H; [split; [constructor|discriminate]|]. destruct l as [|b l]; [split; [repeat constructor; intros []|intros ? _ ? []]|].
  cbn [increasing] in H. apply andb_true_iff in H as [H1 H2]. apply Nat.ltb_lt in H1. destruct (IH H2) as [N K].
  assert (forall c, In c (b :: l) -> (a < c)%nat) as L. { intros c [<-|I]; [auto|]. specialize (K b eq_refl c I). lia. }
  split; [constructor; [|auto]|].
  - intros I. specialize (L a I). lia.
  - intros x E c I. cbn in *. injection E as <-. auto.
Qed.
Lemma increasing_cons a l : (forall b, In b l -> (a < b)%nat) -> increasing l = true -> increasing (a :: l) = true.
Proof. destruct l as [|b l]; intros H I; [reflexivity|]. cbn [increasing] in *. rewrite I. specialize (H b (or_introl eq_refl)). destruct (Nat.ltb_spec a b); auto; lia. Qed.
Lemma increasing_inv a l : increasing (a :: l) = true -> increasing l = true /\ forall b, In b l -> (a < b)%nat.
Proof.
  intros H. split; [|intros b I; now apply (proj2 (increasing_nodup _ H) a eq_refl)]. destruct l as [|b l]; [auto|]. cbn [increasing] in H. now apply andb_true_iff in H.
Qed.
Lemma increasing_filter p l : increasing l = true -> increasing (filter p l) = true.
Proof.
  induction l as [|a l IH]; intros H; [auto|]. apply increasing_inv in H as [H K]. cbn. destruct (p a); [|auto]. apply increasing_cons; [|auto].
  intros b I. apply filter_In in I as [I _]. auto.
Qed.
Lemma increasing_seq n : forall a, increasing (seq a n) = true.
Proof. induction n as [|n IH]; intros a; [auto|]. cbn [seq]. apply increasing_cons; [|auto]. intros b I. apply in_seq in I. lia. Qed.
Lemma increasing_app a b : increasing (a ++ b) = true -> increasing a = true /\ increasing b = true.
Proof.
  induction a as [|x a IH]; intros H; [auto|]. cbn [app] in H. apply increasing_inv in H as [H K]. destruct (IH H). split; [|auto].
  apply increasing_cons; [|auto]. intros y I. apply K, in_or_app. auto.
Qed.

Lemma batches_concat size n : (0 < size)%nat -> concat (batches size n) = seq 0 n.
Proof.
  intros Hs. unfold batches. assert (forall c k, (k * size + (c - 1) * size <= n)%nat -> (0 < c)%nat ->
    concat (map (fun b => seq (b * size) (Nat.min (b * size + size) n - b * size)) (seq k c)) = seq (k * size) (Nat.min ((k + c) * size) n - k * size)) as K.
  { induction c as [|c IH]; intros k B P; [lia|]. cbn [seq map concat]. destruct c as [|c].
    - cbn [seq map concat]. rewrite app_nil_r. f_equal. f_equal. f_equal. lia.
    - rewrite IH by nia. rewrite (Nat.min_l (k * size + size) n) by nia. replace (k * size + size - k * size)%nat with size by lia.
      replace (S k * size)%nat with (k * size + size)%nat by lia. rewrite <- seq_app. f_equal. replace ((S k + S c) * size)%nat with ((k + S (S c)) * size)%nat by nia.
      assert (k * size + size <= Nat.min ((k + S (S c)) * size) n)%nat by (apply Nat.min_glb; nia). lia. }
  destruct (Nat.eq_dec n 0) as [->|Hn].
  - replace ((0 + size - 1) / size)%nat with O; [reflexivity|]. symmetry. apply Nat.div_small. lia.
  - set (c := ((n + size - 1) / size)%nat). assert (0 < c)%nat as Pc by (apply Nat.div_str_pos; lia).
    pose proof (Nat.div_mod (n + size - 1) size ltac:(lia)) as D. pose proof (Nat.mod_upper_bound (n + size - 1) size ltac:(lia)) as U. fold c in D.
    rewrite K; [|nia|auto]. cbn [Nat.add Nat.mul]. f_equal. rewrite Nat.min_r by nia. lia.
Qed.

Section Bands.
  Context (e : env).
  Variables (f : overlap_file) (omap : list (list nat)) (m : nat) (bulk : list (list Q)) (sh : Z * Z) (files : list tile_file).
  Hypothesis Hs : sound_files f files.
  Hypothesis Hom : overlap_map f = Ok omap.
  Variable fnames : list string.
  Hypothesis Nd : NoDup (flat_map three fnames).
  Notation name k := (nth k fnames ""%string).
  Notation one := (alone e f omap m bulk sh files).
  Notation batch := (merge_batch (e_cg e) (e_ilu e) (e_triangles e) f omap m bulk sh files).

  Lemma batch_one k l : batch [k] = Ok l <-> exists o, one k = Ok o /\ l = [o].
  Proof using.
    unfold merge_batch, alone. destruct (start_tiles files bulk [k]) as [ts|]; cbn [bind]; [|split; [discriminate|intros (o & H & _); discriminate]].
    destruct (adjust_tiles _ _ _ _ _ _ ts) as [ts'|]; cbn [bind]; [|split; [discriminate|intros (o & H & _); discriminate]].
    cbn [map_res]. destruct (merged_band ts' k sh) as [o|]; cbn [bind]; [|split; [discriminate|intros (o & H & _); discriminate]].
    split; [intros H; injection H as <-; eauto|]. intros (o' & H & ->). now injection H as <-.
  Qed.

  Lemma batch_iff idx outs : idx <> [] -> increasing idx = true -> (batch idx = Ok outs <-> map_res one idx = Ok outs).
  Proof using Hs Hom.
    intros Ni Hi. destruct Hs as (Ne & Hf & Hr).
    assert (forall outs, batch idx = Ok outs -> map_res one idx = Ok outs) as K.
    { intros os H. pose (d := ([], [], []) : raster * raster * raster). apply (map_res_nth_iff one idx os O d).
      pose proof (fun k => batch_alone (e_cg e) (e_ilu e) (e_triangles e) f omap m bulk sh files Hf Hom Hr idx os k Ne H) as B.
      assert (0 < length idx)%nat as P by (destruct idx; [contradiction|cbn; lia]).
      split; [apply (proj1 (B O P))|]. intros i Bi. pose proof (proj2 (B i Bi) d) as E. apply batch_one in E as (o & E & X). now injection X as <-. }
    split; [apply K|]. intros H.
    destruct (batch_join (e_cg e) (e_ilu e) (e_triangles e) f omap m bulk sh files Hf Hom Hr idx Ne Ni Hi) as (os & E).
    - intros b I. destruct (proj1 (map_res_ok_iff one idx) (ex_intro _ outs H) b I) as (o & Eo). exists [o]. apply batch_one. eauto.
    - rewrite E. f_equal. apply K in E. congruence.
  Qed.

  Definition absents (s : fs) (bands : list nat) : list nat := filter (fun k => absent s (name k)) bands.

  Lemma merge_bands_iff bands s ws : increasing bands = true -> (forall k, In k bands -> (k < length fnames)%nat) ->
    run (merge_bands e f omap m bulk sh files fnames bands) s = (ws, Ok tt) <->
    exists outs, map_res one (absents s bands) = Ok outs /\ ws = raster_writes fnames (absents s bands) outs.
  Proof using Hs Hom Nd.
    intros Hi B. unfold merge_bands. rewrite (then_pure _ _ _ _ (run_missing _ _ _)), concat_missing. fold (absents s bands).
    assert (increasing (absents s bands) = true) as Hi' by now apply increasing_filter.
    assert (forall k, In k (absents s bands) -> In k bands /\ absent s (name k) = true) as Ha by (intros k I; now apply filter_In in I).
    destruct (absents s bands) as [|k0 idx0] eqn:Ei.
    - cbn. split; [intros H; injection H as <-; exists []; auto|]. intros (outs & H & ->). injection H as <-. reflexivity.
    - rewrite <- Ei in *. assert (absents s bands <> []) as Ni by (rewrite Ei; discriminate). clear Ei k0 idx0. set (idx := absents s bands) in *. clearbody idx.
      assert (forall ts s ws, (forall k, In k idx -> absent s (name k) = true) ->
        run (each (fun i => write_merged_band ts (name i) i sh) idx) s = (ws, Ok tt) <->
        exists outs, map_res (fun i => merged_band ts i sh) idx = Ok outs /\ ws = raster_writes fnames idx outs) as W.
      { intros ts s0 ws0 A. apply write_bands; auto; [apply increasing_nodup, Hi'|]. intros k I. apply B, Ha, I. }
      split.
      + intros H. apply then_inv in H as (w1 & ts & w2 & H1 & H & ->). apply lift_inv in H1 as [-> E1]. cbn [apply_writes fold_left] in H.
        apply then_inv in H as (w3 & ts' & w4 & H1 & H & ->). apply lift_inv in H1 as [-> E2]. cbn [apply_writes fold_left] in H.
        apply W in H as (outs & E3 & ->); [|intros k I; apply Ha, I]. exists outs. split; [|reflexivity]. apply batch_iff; auto.
        unfold merge_batch. rewrite E1. cbn [bind]. rewrite E2. exact E3.
      + intros (outs & H & ->). apply batch_iff in H; auto. unfold merge_batch in H.
        destruct (start_tiles files bulk idx) as [ts|] eqn:E1; [|discriminate]. cbn [bind] in H.
        destruct (adjust_tiles _ _ _ _ _ _ ts) as [ts'|] eqn:E2; [|discriminate]. cbn [bind] in H. cbn [lift then_]. rewrite E2. cbn [lift then_].
        apply W; [intros k I; apply Ha, I|]. eauto.
  Qed.

  Lemma map_res_app {A B} (g : A -> res B) a b l : map_res g (a ++ b) = Ok l <->
    exists la lb, map_res g a = Ok la /\ map_res g b = Ok lb /\ l = la ++ lb.
  Proof using.
    revert l. induction a as [|x a IH]; intros l; cbn [app map_res].
    - split; [intros H; exists [], l; auto|]. intros (la & lb & H1 & H2 & ->). injection H1 as <-. exact H2.
    - destruct (g x) as [y|]; cbn [bind]; [|split; [discriminate|intros (la & lb & H & _); discriminate]].
      destruct (map_res g (a ++ b)) as [l'|] eqn:E; cbn [bind].
      + destruct (proj1 (IH l') eq_refl) as (la & lb & E1 & E2 & E3). rewrite E1. cbn [bind]. split.
        * intros H. injection H as <-. exists (y :: la), lb. rewrite E3. auto.
        * intros (la' & lb' & H1 & H2 & ->). injection H1 as <-. rewrite E2 in H2. injection H2 as <-. rewrite E3. reflexivity.
      + split; [discriminate|]. intros (la & lb & H1 & H2 & _). destruct (map_res g a) as [la'|]; [|discriminate].
        assert (Err e0 = Ok (la' ++ lb)) as X by (apply IH; eauto). discriminate.
  Qed.

  Lemma each_batch_iff : forall bs s ws, increasing (concat bs) = true -> (forall k, In k (concat bs) -> (k < length fnames)%nat) ->
    run (each (merge_bands e f omap m bulk sh files fnames) bs) s = (ws, Ok tt) <->
    exists outs, map_res one (absents s (concat bs)) = Ok outs /\ ws = raster_writes fnames (absents s (concat bs)) outs.
  Proof using Hs Hom Nd.
    induction bs as [|b bs IH]; intros s ws Hi B; cbn [each concat].
    - cbn. split; [intros H; injection H as <-; exists []; auto|]. intros (outs & H & ->). injection H as <-. reflexivity.
    - cbn [concat] in Hi, B. pose proof (proj1 (increasing_nodup _ Hi)) as Nb. destruct (increasing_app _ _ Hi) as [H1 H2].
      assert (forall k, In k b -> (k < length fnames)%nat) as B1 by (intros k I; apply B, in_or_app; auto).
      assert (forall k, In k (concat bs) -> (k < length fnames)%nat) as B2 by (intros k I; apply B, in_or_app; auto).
      assert (forall outs, absents (apply_writes s (raster_writes fnames (absents s b) outs)) (concat bs) = absents s (concat bs)) as Same.
      { intros outs. unfold absents. apply filter_ext_in. intros k I. unfold absent. rewrite apply_notin; [reflexivity|].
        intros X. apply in_map_iff in X as (w & Ew & X). apply raster_writes_in in X as (j & J & T). rewrite Ew in T.
        apply filter_In in J as [J _]. assert (j = k) as ->.
        { apply (three_disjoint fnames Nd j k (name k)); auto. apply three_in. auto. }
        clear -Nb I J. induction b as [|x b IH]; [destruct J|]. cbn in Nb. apply NoDup_cons_iff in Nb as [N1 N2]. destruct J as [->|J]; [|auto].
        apply N1, in_or_app. auto. }
      assert (absents s (b ++ concat bs) = absents s b ++ absents s (concat bs)) as Ea by apply filter_app.
      rewrite Ea. split.
      + intros H. apply then_inv in H as (w1 & u & w2 & R1 & R2 & ->). destruct u. apply merge_bands_iff in R1 as (o1 & E1 & ->); auto.
        apply IH in R2 as (o2 & E2 & ->); auto. rewrite Same in *. exists (o1 ++ o2). split; [apply map_res_app; eauto|].
        unfold raster_writes. rewrite <- flat_map_app. f_equal. apply map_res_nth in E1 as [L1 _]. clear -L1. revert o1 L1.
        induction (absents s b) as [|x l IHl]; intros [|y o1] L; try discriminate; [auto|]. cbn. f_equal. apply IHl. cbn in L. lia.
      + intros (outs & H & ->). apply map_res_app in H as (o1 & o2 & E1 & E2 & ->).
        assert (raster_writes fnames (absents s b ++ absents s (concat bs)) (o1 ++ o2) =
          raster_writes fnames (absents s b) o1 ++ raster_writes fnames (absents s (concat bs)) o2) as ->.
        { unfold raster_writes. rewrite <- flat_map_app. f_equal. apply map_res_nth in E1 as [L1 _]. clear -L1. revert o1 L1.
          induction (absents s b) as [|x l IHl]; intros [|y o1] L; try discriminate; [auto|]. cbn. f_equal. apply IHl. cbn in L. lia. }
        eapply then_intro; [apply merge_bands_iff; eauto|]. apply IH; auto. exists o2. rewrite Same. auto.
  Qed.
End Bands.

Section Merge.
  Context (e : env).

  Lemma single_run fl sh : forall l s ws, NoDup (map snd l) ->
    run (each (fun kn => let! exists_ := is_file (snd kn) in
      if exists_ then Ret tt else let! r := lift (single_band fl (fst kn) sh) in Write (snd kn) (CRaster r) (Ret tt)) l) s = (ws, Ok tt) <->
    exists outs, map_res (fun k => single_band fl k sh) (map fst (filter (fun kn : nat * string => absent s (snd kn)) l)) = Ok outs /\
      ws = map (fun no => (fst no, CRaster (snd no))) (combine (map snd (filter (fun kn : nat * string => absent s (snd kn)) l)) outs).
  Proof using.
    induction l as [|[k n] l IH]; intros s ws Nd; cbn [each filter fst snd].
    - cbn. split; [intros H; injection H as <-; exists []; auto|]. intros (outs & H & ->). injection H as <-. reflexivity.
    - cbn [map snd] in Nd. apply NoDup_cons_iff in Nd as [N1 N2]. destruct (absent s n) eqn:A.
      + assert (run (let! exists_ := is_file n in if exists_ then Ret tt else let! r := lift (single_band fl k sh) in Write n (CRaster r) (Ret tt)) s =
          match single_band fl k sh with Ok r => ([(n, CRaster r)], Ok tt) | Err x => ([], Err x) end) as W.
        { rewrite (then_pure _ _ _ _ (run_is_file _ _)), A. cbn [negb]. destruct (single_band fl k sh); reflexivity. }
        assert (forall r, filter (fun kn : nat * string => absent (store s (n, CRaster r)) (snd kn)) l = filter (fun kn => absent s (snd kn)) l) as Same.
        { intros r. apply filter_ext_in. intros [j x] I. unfold absent, store. cbn [fst snd]. destruct (String.eqb_spec x n) as [->|]; [|reflexivity].
          exfalso. apply N1. apply in_map_iff. exists (j, n). auto. }
        cbn [map fst snd map_res]. destruct (single_band fl k sh) as [r|x] eqn:E; cbn [bind].
        * split.
          -- intros H. apply then_inv in H as (w1 & u & w2 & R1 & R2 & ->). rewrite W in R1. injection R1 as <- <-.
             apply IH in R2 as (outs & E2 & ->); auto. cbn [apply_writes fold_left] in E2 |- *. rewrite Same in *. rewrite E2. cbn. exists (r :: outs). auto.
          -- intros (outs & E2 & ->). destruct (map_res _ _) as [o2|] eqn:M; [|discriminate]. cbn in E2. injection E2 as <-. cbn [combine map fst snd].
             eapply (then_intro _ _ _ [(n, CRaster r)]); [exact W|]. apply IH; auto. cbn [apply_writes fold_left]. rewrite Same. eauto.
        * split; [|intros (outs & X & _); discriminate]. intros H. apply then_inv in H as (w1 & u & w2 & R1 & _). rewrite W in R1. discriminate.
      + rewrite (then_pure _ _ _ tt); [now apply IH|]. rewrite (then_pure _ _ _ _ (run_is_file _ _)), A. reflexivity.
  Qed.

  Lemma indexed_filter (p : string -> bool) fnames : forall a,
    map fst (filter (fun kn => p (snd kn)) (combine (seq a (length fnames)) fnames)) =
      filter (fun k => p (nth (k - a) fnames ""%string)) (seq a (length fnames)) /\
    map snd (filter (fun kn => p (snd kn)) (combine (seq a (length fnames)) fnames)) =
      map (fun k => nth (k - a) fnames ""%string) (filter (fun k => p (nth (k - a) fnames ""%string)) (seq a (length fnames))).
  Proof using.
    induction fnames as [|n l IH]; intros a; [auto|]. cbn [length seq combine filter fst snd]. rewrite Nat.sub_diag. change (nth 0 (n :: l) ""%string) with n.
    assert (filter (fun k => p (nth (k - a) (n :: l) ""%string)) (seq (S a) (length l)) =
      filter (fun k => p (nth (k - S a) l ""%string)) (seq (S a) (length l))) as E.
    { apply filter_ext_in. intros k I. apply in_seq in I. replace (k - a)%nat with (S (k - S a)) by lia. reflexivity. }
    destruct (IH (S a)) as [I1 I2].
    assert (map (fun k => nth (k - a) (n :: l) ""%string) (filter (fun k => p (nth (k - S a) l ""%string)) (seq (S a) (length l))) =
      map (fun k => nth (k - S a) l ""%string) (filter (fun k => p (nth (k - S a) l ""%string)) (seq (S a) (length l)))) as E2.
    { apply map_ext_in. intros k I. apply filter_In in I as [I _]. apply in_seq in I. replace (k - a)%nat with (S (k - S a)) by lia. reflexivity. }
    rewrite E. destruct (p n); cbn [map fst snd]; rewrite I1, I2; [rewrite E2, Nat.sub_diag|rewrite E2]; auto.
  Qed.

  Lemma combine_map_l {A B C} (g : A -> B) (l : list A) (r : list C) : combine (map g l) r = map (fun ac => (g (fst ac), snd ac)) (combine l r).
  Proof using. revert r. induction l as [|a l IH]; intros [|c r]; cbn; auto. now rewrite IH. Qed.

  Lemma single_iff fl sh fnames s ws : NoDup fnames ->
    run (write_single_tile fl sh fnames) s = (ws, Ok tt) <->
    exists outs, map_res (fun k => single_band fl k sh) (missing_bands s fnames) = Ok outs /\
      ws = map (fun ko => (nth (fst ko) fnames ""%string, CRaster (snd ko))) (combine (missing_bands s fnames) outs).
  Proof using.
    intros Nd. unfold write_single_tile. rewrite single_run; auto.
    - destruct (indexed_filter (absent s) fnames O) as [E1 E2].
      assert (map fst (filter (fun kn : nat * string => absent s (snd kn)) (combine (seq 0 (length fnames)) fnames)) = missing_bands s fnames) as ->.
      { rewrite E1. unfold missing_bands. apply filter_ext_in. intros k _. now rewrite Nat.sub_0_r. }
      assert (map snd (filter (fun kn : nat * string => absent s (snd kn)) (combine (seq 0 (length fnames)) fnames)) =
        map (fun k => nth k fnames ""%string) (missing_bands s fnames)) as ->.
      { rewrite E2. unfold missing_bands. erewrite filter_ext_in; [apply map_ext_in|]; intros k _; cbv beta; now rewrite Nat.sub_0_r. }
      split; intros (outs & E & ->); exists outs; (split; [auto|]); rewrite combine_map_l, map_map; reflexivity.
    - replace (map snd (combine (seq 0 (length fnames)) fnames)) with fnames; [auto|]. clear. generalize O. induction fnames as [|n l IH]; intros a; [auto|]. cbn. f_equal. apply IH.
  Qed.

  Lemma batch_size_pos p n : (0 < n)%nat -> (0 < batch_size p n)%nat.
  Proof using. intros H. unfold batch_size. destruct (Z.ltb_spec (Z.min p (Z.of_nat n)) 1); lia. Qed.

  Lemma three_nodup fnames : NoDup (flat_map three fnames) -> NoDup fnames.
  Proof using.
    induction fnames as [|a l IH]; intros H; [constructor|]. cbn [flat_map] in H. constructor.
    - intros I. unfold three at 1 in H. cbn [app] in H. apply NoDup_cons_iff in H as [H _]. apply H. right. right. apply in_flat_map. exists a.
      split; [auto|]. apply three_in. auto.
    - apply IH. eapply NoDup_app_remove_l; eauto.
  Qed.

  Lemma merge_tiles_iff s fnames ws : (forall fn, output_files e = Ok fn -> NoDup (flat_map three fn)) -> sound e s ->
    run (merge_tiles e) s = (ws, Ok fnames) <->
    e_method e = "dirichlet"%string /\ output_files e = Ok fnames /\ to_write e s fnames ws.
  Proof using.
    intros Nm So. unfold merge_tiles. split.
    - destruct (String.eqb_spec (e_method e) "dirichlet") as [M|M]; cbn [negb]; [|discriminate]. intros H. split; [auto|].
      apply then_inv in H as (w1 & t & w2 & H1 & H & ->). apply read_tileset_iff in H1 as [-> T]. cbn [apply_writes fold_left] in H.
      apply then_inv in H as (w1 & files & w3 & H1 & H & ->). apply read_tiles_iff in H1 as (-> & L & F). cbn [apply_writes fold_left] in H.
      apply then_inv in H as (w1 & fn & w4 & H1 & H & ->). apply lift_inv in H1 as [-> O]. cbn [apply_writes fold_left] in H. specialize (Nm fn O).
      cbn [app]. destruct (Nat.eqb_spec (ntiles t) 1) as [N|N].
      + apply then_inv in H as (w1 & u & w5 & H1 & H & ->). cbn in H. injection H as <- <-. split; [auto|]. exists t, files. split; [auto|]. split; [auto|]. split; [exact F|].
        left. split; [auto|]. destruct u. apply single_iff in H1; [|now apply three_nodup]. rewrite app_nil_r. exact H1.
      + apply then_inv in H as (w1 & f & w5 & H1 & H & ->). apply read_overlaps_iff in H1 as (-> & Ef). cbn [apply_writes fold_left] in H.
        apply then_inv in H as (w1 & omap & w6 & H1 & H & ->). apply lift_inv in H1 as [-> Eo]. cbn [apply_writes fold_left] in H.
        apply then_inv in H as (w1 & m & w7 & H1 & H & ->). apply lift_inv in H1 as [-> Em]. cbn [apply_writes fold_left] in H.
        apply then_inv in H as (w1 & bulk & w8 & H1 & H & ->). apply read_offsets_iff in H1 as (-> & r & Eb). cbn [apply_writes fold_left] in H.
        destruct (batch_size (e_parallel_ifgs e) (length fn)) as [|size] eqn:Es; [discriminate|].
        apply then_inv in H as (w1 & u & w9 & H1 & H & ->). cbn in H. injection H as <- <-. destruct u. split; [auto|]. exists t, files.
        split; [auto|]. split; [auto|]. split; [exact F|]. right. split; [auto|]. apply each_batch_iff in H1; auto.
        * rewrite batches_concat in H1 by lia. destruct H1 as (outs & E1 & ->). exists f, omap, m, bulk, r, outs. cbn [app]. rewrite app_nil_r.
          repeat (split; [now auto|]). split; [|split; [exact E1|reflexivity]].
          intros ->. unfold batch_size in Es. cbn in Es. destruct (Z.ltb_spec (Z.min (e_parallel_ifgs e) 0) 1); lia.
        * eapply So; eauto.
        * rewrite batches_concat by lia. apply increasing_seq.
        * rewrite batches_concat by lia. intros k I. apply in_seq in I. lia.
    - intros (-> & O & t & files & T & L & F & H). cbn [String.eqb Ascii.eqb Bool.eqb negb]. specialize (Nm fnames O).
      rewrite (then_pure _ _ _ t) by now apply read_tileset_iff. rewrite (then_pure _ _ _ files) by now apply read_tiles_iff.
      rewrite (then_pure _ _ _ fnames) by (now rewrite run_lift, O). destruct H as [(N & H)|(N & f & omap & m & bulk & r & outs & Ef & Eo & Em & Eb & Ne & E & ->)].
      + rewrite (proj2 (Nat.eqb_eq _ _) N). rewrite <- (app_nil_r ws). eapply then_intro; [|reflexivity]. apply single_iff; [now apply three_nodup|auto].
      + rewrite (proj2 (Nat.eqb_neq _ _) N). rewrite (then_pure _ _ _ f) by now apply read_overlaps_iff. rewrite (then_pure _ _ _ omap) by (now rewrite run_lift, Eo).
        rewrite (then_pure _ _ _ m) by (now rewrite run_lift, Em). rewrite (then_pure _ _ _ bulk) by (apply read_offsets_iff; eauto).
        pose proof (batch_size_pos (e_parallel_ifgs e) (length fnames)) as P. assert (0 < length fnames)%nat as Pl by (destruct fnames; [contradiction|cbn; lia]). specialize (P Pl).
        destruct (batch_size (e_parallel_ifgs e) (length fnames)) as [|size]; [lia|].
        match goal with |- _ = (?w, _) => rewrite <- (app_nil_r w) end. eapply then_intro; [|reflexivity].
        apply each_batch_iff; auto; rewrite ?batches_concat by lia.
        * eapply So; eauto.
        * apply increasing_seq.
        * intros k I. apply in_seq in I. lia.
        * eexists. split; [exact E|reflexivity].
  Qed.
End Merge.
