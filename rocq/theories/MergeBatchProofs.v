(** The bands of a batch do not influence each other. *)
From Verif Require Import Base BaseLemmas PoolProofs GraphModel TileModel OverlapModel BulkModel BulkProofs
  DirichletModel DirichletSpec DirichletProofs MergeModel MergeSpec TileStateProofs AdjustProofs BandProofs.
From Coq Require Import List ZifyBool Lqa Permutation.
Import ListNotations.
Set Default Goal Selector "!".
Local Open Scope Q_scope.
Local Notation tl ts i := (nth i ts dtile).

(** Some rows of a matrix, some bands of a tile. *)
Definition pm (ks : list nat) (m : matrix) : matrix := map (fun k => nth k m []) ks.
Definition pick (ks : list nat) (t : tile) : tile :=
  Tile (t_file t) (map (fun k => nth k (t_idx t) O) ks) (pm ks (t_raw t)) (map (pm ks) (t_corr t)) (t_level t).
Definition below (ks : list nat) (n : nat) : Prop := forall k, In k ks -> (k < n)%nat.

Lemma nth_combine {A B} (l : list A) (l' : list B) k a b : (k < length l)%nat -> (k < length l')%nat ->
  nth k (combine l l') (a, b) = (nth k l a, nth k l' b).
Proof.
  revert l' k. induction l as [|x l IH]; intros [|y l'] [|k] H H'; cbn in *; try lia; [auto|]. apply IH; lia.
Qed.

Lemma combine_map {A B C} (g : A -> B) (h : A -> C) l : combine (map g l) (map h l) = map (fun a => (g a, h a)) l.
Proof. induction l; cbn; congruence. Qed.

Lemma pm_length ks m : length (pm ks m) = length ks.
Proof. apply map_length. Qed.

Lemma pm_combine {B} (g : list Q * list Q -> B) d ks a b : below ks (length a) -> below ks (length b) ->
  map g (combine (pm ks a) (pm ks b)) = map (fun k => nth k (map g (combine a b)) d) ks.
Proof.
  intros Ha Hb. unfold pm. rewrite combine_map, map_map. apply map_ext_in. intros k I. specialize (Ha k I). specialize (Hb k I).
  rewrite (map_nth' _ _ _ ([], [])) by (rewrite combine_length; lia). now rewrite nth_combine by auto.
Qed.

Lemma pm_madd ks a b : below ks (length a) -> below ks (length b) -> pm ks (madd a b) = madd (pm ks a) (pm ks b).
Proof. intros Ha Hb. unfold madd. rewrite (pm_combine _ [] ks a b) by auto. reflexivity. Qed.

Lemma madd_length a b : length (madd a b) = Nat.min (length a) (length b).
Proof. unfold madd. now rewrite map_length, combine_length. Qed.

Lemma below_min ks a b : below ks a -> below ks b -> below ks (Nat.min a b).
Proof. intros Ha Hb k I. specialize (Ha k I). specialize (Hb k I). lia. Qed.

Lemma pm_fold ks l : forall a, below ks (length a) -> (forall c, In c l -> below ks (length c)) ->
  pm ks (fold_left madd l a) = fold_left madd (map (pm ks) l) (pm ks a) /\ below ks (length (fold_left madd l a)).
Proof.
  induction l as [|c l IH]; intros a Ha Hl; cbn [fold_left map]; [auto|]. pose proof (Hl c (or_introl eq_refl)) as Hc.
  rewrite <- pm_madd by auto. apply IH; [rewrite madd_length; now apply below_min|]. intros d I. apply Hl. now right.
Qed.

Lemma map_res_map {A B C D} (g : A -> res B) (h : C -> res D) (p : A -> C) (q : B -> D) l bs :
  (forall i da db, (i < length l)%nat -> g (nth i l da) = Ok (nth i bs db) -> h (p (nth i l da)) = Ok (q (nth i bs db))) ->
  map_res g l = Ok bs -> map_res h (map p l) = Ok (map q bs).
Proof.
  revert bs. induction l as [|a l IH]; intros bs K H; cbn in *; [injection H as <-; reflexivity|].
  destruct (g a) as [b|] eqn:E; [|discriminate]. cbn [bind] in H. destruct (map_res g l) as [bs'|] eqn:E'; [|discriminate]. cbn [bind] in H. injection H as <-.
  pose proof (K O a b ltac:(cbn; lia)) as K0. cbn in K0. rewrite K0 by auto. cbn [bind].
  rewrite (IH bs'); auto. intros i da db Hi. apply (K (S i) da db). cbn; lia.
Qed.

Lemma map_res_ok_iff {A B} (g : A -> res B) l : (exists bs, map_res g l = Ok bs) <-> forall a, In a l -> exists b, g a = Ok b.
Proof.
  induction l as [|a l IH]; split.
  - intros _ a [].
  - intros _. now exists [].
  - intros (bs & H) x I. cbn in H. destruct (g a) as [b|] eqn:E; [|discriminate]. cbn [bind] in H.
    destruct (map_res g l) as [bs'|] eqn:E'; [|discriminate]. destruct I as [<-|I]; [eauto|]. apply IH; eauto.
  - intros H. destruct (H a (or_introl eq_refl)) as (b & E). destruct (proj2 IH) as (bs & E'); [intros x I; apply H; now right|].
    exists (b :: bs). cbn. now rewrite E, E'.
Qed.

Section Pick.
  Variables (nb : nat) (ks : list nat).
  Hypothesis Hk : below ks nb.

  Definition wide (t : tile) : Prop := tile_ok t /\ length (t_idx t) = nb.

  Lemma pick_uw t level : wide t -> get_uw_phase (pick ks t) level = pm ks (get_uw_phase t level).
  Proof using Hk.
    intros [[[Lr Hr] Hc] E]. unfold get_uw_phase, get_corrections_sum, msum. cbn [pick t_raw t_corr].
    assert (zero_like (pm ks (t_raw t)) = pm ks (zero_like (t_raw t))) as ->.
    { unfold zero_like, pm. rewrite map_map. apply map_ext_in. intros k I. specialize (Hk k I). now rewrite (map_nth' _ _ _ []) by lia. }
    rewrite firstn_map.
    destruct (pm_fold ks (firstn level (t_corr t)) (zero_like (t_raw t))) as [E1 E2].
    - unfold zero_like. rewrite map_length. now rewrite Lr, E.
    - intros c I. apply firstn_In in I. destruct (Hc c I) as [-> _]. now rewrite E.
    - rewrite <- E1. rewrite <- pm_madd; auto. now rewrite Lr, E.
  Qed.

  Lemma pick_uw_phase t : wide t -> uw_phase (pick ks t) = pm ks (uw_phase t).
  Proof using Hk. apply pick_uw. Qed.

  Lemma wide_ready t : ready nb t -> wide t.
  Proof using. intros (H & E & _). now split. Qed.

  Lemma pick_coords t : coords (pick ks t) = coords t.
  Proof using. reflexivity. Qed.

  Lemma pick_nth ts i : (i < length ts)%nat -> tl (map (pick ks) ts) i = pick ks (tl ts i).
  Proof using. intros H. apply map_nth'. exact H. Qed.

  Lemma pick_nth_error ts i : nth_error (map (pick ks) ts) i = option_map (pick ks) (nth_error ts i).
  Proof using. apply nth_error_map. Qed.

  Lemma pick_neighbour f ts ii jj c s c' s' : (forall t, In t ts -> wide t) -> below ks (length s) ->
    add_neighbour f ts ii (c, s) jj = Ok (c', s') ->
    add_neighbour f (map (pick ks) ts) ii (c, pm ks s) jj = Ok (c', pm ks s') /\ below ks (length s').
  Proof using Hk.
    intros Hw Hs H. unfold add_neighbour in *. rewrite pick_nth_error. destruct (nth_error ts jj) as [tj|] eqn:Ej; [|discriminate].
    cbn [option_map]. destruct (if (ii <? jj)%nat then _ else _) as [[ci cj]|]; [|discriminate]. cbn [bind] in *.
    destruct (negb (forallb _ ci)); [discriminate|]. change (npoints (pick ks tj)) with (npoints tj).
    destruct (negb (forallb _ cj)); [discriminate|]. destruct (negb _); [discriminate|]. injection H as <- <-.
    assert (wide tj) as Wj by (apply Hw; eapply nth_error_In; eauto).
    assert (length (uw_phase tj) = nb) as Hu. { destruct Wj as [T E]. destruct (uw_shape tj T (t_level tj)) as [L _]. unfold uw_phase. lia. }
    rewrite (pick_uw_phase tj Wj). split; [|rewrite map_length, combine_length; apply below_min; [auto|now rewrite Hu]].
    rewrite (pm_combine _ []); [reflexivity|auto|now rewrite Hu].
  Qed.

  Lemma pick_neighbours f ts ii l : (forall t, In t ts -> wide t) -> forall c s c' s', below ks (length s) ->
    fold_res (add_neighbour f ts ii) (c, s) l = Ok (c', s') ->
    fold_res (add_neighbour f (map (pick ks) ts) ii) (c, pm ks s) l = Ok (c', pm ks s') /\ below ks (length s').
  Proof using Hk.
    intros Hw. induction l as [|j l IH]; intros c s c' s' Hs H; cbn [fold_res] in *.
    - injection H as <- <-. auto.
    - destruct (add_neighbour f ts ii (c, s) j) as [[c1 s1]|] eqn:E; [|discriminate]. cbn [bind] in H.
      apply pick_neighbour in E as [-> E2]; auto. cbn [bind]. now apply IH.
  Qed.

  Lemma pick_raw_corr c s d : below ks (length s) -> below ks (length d) -> raw_corr c (pm ks s) (pm ks d) = pm ks (raw_corr c s d).
  Proof using Hk.
    intros Hs Hd. unfold raw_corr. now apply (pm_combine _ []).
  Qed.

  Lemma pick_dirichlet cg ilu a n xf mask out : below ks (length xf) -> dirichlet_graph cg ilu true a n xf mask = Ok out ->
    dirichlet_graph cg ilu true a n (pm ks xf) mask = Ok (pm ks out).
  Proof using.
    unfold dirichlet_graph. intros Hx H. destruct (negb _); [discriminate|]. destruct (negb _); [discriminate|]. destruct (negb _); [discriminate|].
    apply map_res_nth in H as [L K]. unfold pm. clear -Hx K. induction ks as [|k l IH]; [reflexivity|]. cbn [map map_res].
    rewrite (K k [] [] (Hx k (or_introl eq_refl))). cbn [bind]. rewrite IH; [reflexivity|]. intros j I. apply Hx. now right.
  Qed.

  Variables (cg : list (list Q) -> list Q -> list Q) (ilu : list (list Q) -> bool)
            (triangles : list (Z * Z) -> res (list (nat * nat * nat))) (f : overlap_file).

  Lemma pick_delta degree ts ii o : recorded f ts -> (forall t, In t ts -> ready nb t) -> (ii < length ts)%nat ->
    let om := map (neighbours f) (seq 0 (length ts)) in
    delta cg ilu triangles f om degree ts ii = Ok o ->
    delta cg ilu triangles f om degree (map (pick ks) ts) ii = Ok (option_map (pm ks) o).
  Proof using Hk.
    intros Hd Hr Bi om H.
    unfold delta in *. rewrite pick_nth_error. rewrite (nth_error_nth' ts dtile Bi) in *. cbn [option_map].
    assert (ready nb (tl ts ii)) as Ri by (apply Hr, nth_In, Bi). pose proof Ri as (Tok & Enb & Lv & _).
    assert (forall t, In t ts -> wide t) as Hw by (intros t I; now apply wide_ready, Hr).
    assert (wide (tl ts ii)) as Wi by now apply wide_ready.
    set (ti := tl ts ii) in *. change (t_level (pick ks ti)) with (t_level ti). change (npoints (pick ks ti)) with (npoints ti).
    change (t_idx (pick ks ti)) with (map (fun k => nth k (t_idx ti) O) ks). rewrite map_length. change (tile_laplacian triangles (pick ks ti)) with (tile_laplacian triangles ti).
    destruct (negb _); [discriminate|].
    assert (nth_error om ii = Some (neighbours f ii)) as Eo.
    { unfold om. rewrite nth_error_map, (nth_error_nth' _ O) by now rewrite seq_length. cbn. now rewrite seq_nth. }
    rewrite Eo in *. rewrite (pick_uw_phase _ Wi).
    assert (length (uw_phase ti) = nb) as Hu by (destruct (uw_shape _ Tok (t_level ti)) as [L _]; unfold uw_phase; lia).
    destruct (gathered_shape f ts nb Hd Hr ii Bi) as (c & s & Ef & Lc & Ss & _). fold ti in Ef, Lc, Ss. rewrite Ef in H. cbn [bind fst snd] in H.
    apply pick_neighbours in Ef as [Ef Hs]; [|auto|now rewrite Hu]. rewrite Ef. cbn [bind fst snd].
    destruct (negb _); [now injection H as <-|].
    destruct (tile_laplacian _ _) as [lap|]; [|discriminate]. cbn [bind] in *. rewrite pick_raw_corr by (auto; now rewrite Hu).
    destruct (raw_corr_ok c s _ nb _ Lc Ss (uw_ready nb _ Ri)) as [[Lrc Hrc] _].
    set (rc := raw_corr c s (uw_phase ti)) in *.
    destruct (dirichlet_graph _ _ _ _ _ _ _) as [corr|] eqn:Eg; [|discriminate]. cbn [bind] in H.
    rewrite (pick_dirichlet _ _ _ _ rc _ _ ltac:(rewrite Lrc; auto) Eg). cbn [bind].
    apply graph_ok in Eg as (_ & _ & Lcr & Hrow).
    assert (length (mask_of degree c) = npoints ti) as Lmk by (unfold mask_of; now rewrite map_length).
    assert (has_shape corr nb (npoints ti)) as Sc.
    { split; [lia|]. intros row I. apply (In_nth _ _ []) in I as (j & Hj & <-). rewrite Lcr in Hj. specialize (Hrow j Hj).
      apply row_ok in Hrow as (L & _); [lia|]. rewrite Lmk. apply Hrc, nth_In, Hj. }
    rewrite Enb, broadcast_full in H by auto. cbn [bind] in H. injection H as <-.
    rewrite broadcast_full; [reflexivity|]. split; [apply pm_length|]. intros row I. apply in_map_iff in I as (k & <- & I). eapply shape_nth; eauto.
  Qed.

  Lemma pick_compress t t' : ready nb t \/ (exists t0 m, ready nb t0 /\ has_shape m nb (npoints t0) /\ t = push t0 m) ->
    compress_corrections t = Ok t' -> compress_corrections (pick ks t) = Ok (pick ks t').
  Proof using Hk.
    intros [(Tok & E & L & C & N)|(t0 & m & (Tok & E & L & C & N) & [Lm Hm] & ->)] H.
    - unfold compress_corrections in *. cbn [pick t_corr t_file t_idx t_raw t_level].
      destruct (t_corr t) as [|c [|]] eqn:Ec; try discriminate. cbn [map] in *. cbn in H. injection H as <-. reflexivity.
    - unfold compress_corrections, push in *. cbn [pick t_corr t_file t_idx t_raw t_level] in *.
      destruct (t_corr t0) as [|c [|]] eqn:Ec; try discriminate. cbn [map app last removelast length Nat.ltb Nat.leb] in *. injection H as <-.
      unfold pick. cbn [t_corr t_file t_idx t_raw t_level map]. rewrite pm_madd; [reflexivity| |now rewrite Lm].
      destruct Tok as [_ Hc]. destruct (Hc c) as [-> _]; [rewrite Ec; now left|]. now rewrite E.
  Qed.

  Lemma pick_pass order degree ts ts' : recorded f ts -> (forall t, In t ts -> ready nb t) ->
    Permutation order (seq 0 (length ts)) ->
    let om := map (neighbours f) (seq 0 (length ts)) in
    adjust_pass cg ilu triangles order f om ts degree = Ok ts' ->
    adjust_pass cg ilu triangles order f om (map (pick ks) ts) degree = Ok (map (pick ks) ts').
  Proof using Hk.
    intros Hd Hr P om H. unfold adjust_pass in *. destruct (fold_res _ ts order) as [ts1|] eqn:Ef; [|discriminate]. cbn [bind] in H.
    assert (forall l, Forall2 same_view l l) as V by (clear; induction l; constructor; auto using same_view_refl).
    assert (Forall active ts) as Ha by (apply Forall_forall; intros t I; eapply ready_active; apply Hr, I).
    assert (NoDup order) as No by (eapply Permutation_NoDup; [apply Permutation_sym; exact P|apply seq_NoDup]).
    apply (visit cg ilu triangles f om degree ts) in Ef as (D & L & N); auto.
    assert (forall i, In i order <-> (i < length ts)%nat) as Hin.
    { intros i. split; intros I.
      - eapply Permutation_in in I; [|exact P]. apply in_seq in I. lia.
      - eapply Permutation_in; [apply Permutation_sym; exact P|]. apply in_seq. lia. }
    assert (forall i, (i < length ts)%nat -> exists o, delta cg ilu triangles f om degree ts i = Ok o /\
      match o with Some m => has_shape m nb (npoints (tl ts i)) | None => True end /\
      tl ts1 i = match o with Some m => push (tl ts i) m | None => tl ts i end) as Hi.
    { intros i Bi. destruct (D i (proj2 (Hin i) Bi)) as (o & Eo). exists o. split; [auto|].
      split; [destruct o; [exact (delta_shape cg ilu triangles f ts nb degree Hd Hr i _ Bi Eo)|auto]|].
      rewrite N. destruct (in_dec _ i order) as [_|Ni]; [|exfalso; apply Ni, Hin, Bi]. rewrite Eo. destruct o; reflexivity. }
    assert (fold_res (adjust_tile cg ilu triangles f om degree) (map (pick ks) ts) order = Ok (map (pick ks) ts1)) as ->.
    { apply (visit cg ilu triangles f om degree (map (pick ks) ts)); auto.
      - apply Forall_forall. intros t I. apply in_map_iff in I as (t0 & <- & I). rewrite Forall_forall in Ha. destruct (Ha t0 I) as [A1 A2].
        split; [exact A1|]. cbn [pick t_corr]. destruct (t_corr t0); [contradiction|discriminate].
      - split; [|split].
        + intros i I. apply Hin in I. destruct (Hi i I) as (o & Eo & _). eexists. eapply pick_delta; eauto.
        + rewrite !map_length. exact L.
        + intros i. destruct (in_dec _ i order) as [I|I].
          * apply Hin in I. destruct (Hi i I) as (o & Eo & _ & E1). unfold om. erewrite (pick_delta degree ts i o); eauto.
            rewrite !pick_nth by lia. rewrite E1. destruct o as [m|]; [|reflexivity].
            cbn [option_map put_delta]. unfold push, pick. cbn [t_file t_idx t_raw t_corr t_level]. now rewrite map_app.
          * rewrite !nth_overflow; auto; rewrite map_length; [|rewrite L];
              destruct (Nat.lt_ge_cases i (length ts)) as [B|B]; auto; exfalso; apply I, Hin, B. }
    cbn [bind]. eapply map_res_map; [|exact H]. intros i da db Bi E.
    eapply pick_compress; [|exact E]. rewrite (nth_indep _ da dtile) by auto. rewrite L in Bi.
    destruct (Hi i Bi) as (o & _ & So & E1). assert (ready nb (tl ts i)) as Ri by (apply Hr, nth_In, Bi).
    rewrite E1. destruct o as [m|]; [right|left; auto]. exists (tl ts i), m. auto.
  Qed.

  Lemma sel_length_map {A B C} (g : A -> B) (h : A -> C) mask l : length (sel mask (map g l)) = length (sel mask (map h l)).
  Proof using. revert l. induction mask as [|[|] m IH]; intros [|x l]; cbn; auto. Qed.

  Lemma row_success logging amat mask xf xf' o : dirichlet_row cg logging amat mask xf = Ok o ->
    exists o', dirichlet_row cg logging amat mask xf' = Ok o'.
  Proof using.
    unfold dirichlet_row. rewrite (sel_length_map (fun row => - dotQ (sel mask row) (sel mask xf)) (fun row => - dotQ (sel mask row) (sel mask xf')) (off mask) amat).
    destruct (negb _); [discriminate|]. intros _. destruct (_ && _)%bool; eauto.
  Qed.

  Hypothesis Hks : ks <> [].

  Lemma join_delta degree ts ii o : recorded f ts -> (forall t, In t ts -> ready nb t) -> (ii < length ts)%nat ->
    let om := map (neighbours f) (seq 0 (length ts)) in
    delta cg ilu triangles f om degree (map (pick ks) ts) ii = Ok o ->
    exists o', delta cg ilu triangles f om degree ts ii = Ok o'.
  Proof using Hk Hks.
    intros Hd Hr Bi om H.
    unfold delta in *. rewrite pick_nth_error in H. rewrite (nth_error_nth' ts dtile Bi) in *. cbn [option_map] in H.
    assert (ready nb (tl ts ii)) as Ri by (apply Hr, nth_In, Bi). pose proof Ri as (Tok & Enb & Lv & _).
    assert (forall t, In t ts -> wide t) as Hw by (intros t I; now apply wide_ready, Hr).
    assert (wide (tl ts ii)) as Wi by now apply wide_ready.
    set (ti := tl ts ii) in *. change (t_level (pick ks ti)) with (t_level ti) in H. change (npoints (pick ks ti)) with (npoints ti) in H.
    change (tile_laplacian triangles (pick ks ti)) with (tile_laplacian triangles ti) in H.
    destruct (negb _); [discriminate|].
    assert (nth_error om ii = Some (neighbours f ii)) as Eo.
    { unfold om. rewrite nth_error_map, (nth_error_nth' _ O) by now rewrite seq_length. cbn. now rewrite seq_nth. }
    rewrite Eo in *. rewrite (pick_uw_phase _ Wi) in H.
    assert (length (uw_phase ti) = nb) as Hu by (destruct (uw_shape _ Tok (t_level ti)) as [L _]; unfold uw_phase; lia).
    destruct (gathered_shape f ts nb Hd Hr ii Bi) as (c & s & Ef & Lc & Ss & _). fold ti in Ef, Lc, Ss. rewrite Ef. cbn [bind fst snd].
    apply pick_neighbours in Ef as [Ef Hs]; [|auto|now rewrite Hu]. rewrite Ef in H. cbn [bind fst snd] in H.
    destruct (negb _); [eauto|].
    destruct (tile_laplacian _ _) as [lap|]; [|discriminate]. cbn [bind] in *. rewrite pick_raw_corr in H by (auto; now rewrite Hu).
    destruct (raw_corr_ok c s _ nb _ Lc Ss (uw_ready nb _ Ri)) as [[Lrc Hrc] _].
    set (rc := raw_corr c s (uw_phase ti)) in *.
    destruct (dirichlet_graph _ _ _ _ _ _ _) as [corr|] eqn:Eg in H; [|discriminate]. clear H.
    assert (exists corr', dirichlet_graph cg ilu true lap (npoints ti) rc (mask_of degree c) = Ok corr') as (corr' & Ec).
    { clear -Eg Hks. unfold dirichlet_graph in *. destruct (negb _); [discriminate|]. destruct (negb _); [discriminate|]. destruct (negb _); [discriminate|].
      destruct ks as [|k0 l]; [contradiction|]. unfold pm in Eg. cbn [map map_res] in Eg.
      destruct (dirichlet_row cg true lap _ (nth k0 rc [])) as [r0|] eqn:E0; [|discriminate]. clear Eg.
      induction rc as [|x xs IH]; [cbn; eauto|]. clear IH. destruct (proj2 (map_res_ok_iff (dirichlet_row cg true lap (mask_of degree c)) (x :: xs))) as (bs & E); [|eauto].
      intros a _. eapply row_success; eauto. }
    rewrite Ec. cbn [bind]. apply graph_ok in Ec as (_ & _ & Lcr & Hrow).
    assert (length (mask_of degree c) = npoints ti) as Lmk by (unfold mask_of; now rewrite map_length).
    assert (has_shape corr' nb (npoints ti)) as Sc.
    { split; [lia|]. intros row I. apply (In_nth _ _ []) in I as (j & Hj & <-). rewrite Lcr in Hj. specialize (Hrow j Hj).
      apply row_ok in Hrow as (L & _); [lia|]. rewrite Lmk. apply Hrc, nth_In, Hj. }
    rewrite Enb, broadcast_full by auto. cbn [bind]. eauto.
  Qed.

  Lemma join_pass order degree ts ts' : recorded f ts -> (forall t, In t ts -> ready nb t) ->
    Permutation order (seq 0 (length ts)) ->
    let om := map (neighbours f) (seq 0 (length ts)) in
    adjust_pass cg ilu triangles order f om (map (pick ks) ts) degree = Ok ts' ->
    exists ts1, adjust_pass cg ilu triangles order f om ts degree = Ok ts1.
  Proof using Hk Hks.
    intros Hd Hr P om H. apply (pass_total cg ilu triangles f nb); auto. intros i Bi.
    unfold adjust_pass in H. destruct (fold_res _ (map (pick ks) ts) order) as [ts1|] eqn:Ef; [|discriminate].
    assert (forall l, Forall2 same_view l l) as V by (clear; induction l; constructor; auto using same_view_refl).
    assert (Forall active ts) as Ha by (apply Forall_forall; intros t I; eapply ready_active; apply Hr, I).
    assert (NoDup order) as No by (eapply Permutation_NoDup; [apply Permutation_sym; exact P|apply seq_NoDup]).
    apply (visit cg ilu triangles f om degree (map (pick ks) ts)) in Ef as (D & _); auto.
    - destruct (D i) as (o & Eo); [|eapply join_delta; eauto]. eapply Permutation_in; [apply Permutation_sym, P|]. apply in_seq. lia.
    - apply Forall_forall. intros t I. apply in_map_iff in I as (t0 & <- & I). rewrite Forall_forall in Ha. destruct (Ha t0 I) as [A1 A2].
      split; [exact A1|]. cbn [pick t_corr]. destruct (t_corr t0); [contradiction|discriminate].
  Qed.

  Variable orders : nat -> list nat.

  (** The adjustment of one band of a batch is the adjustment of that band alone. *)
  Lemma pick_adjust m : forall ts ts' omap, recorded f ts -> (forall t, In t ts -> ready nb t) ->
    (forall d, Permutation (orders d) (seq 0 (length ts))) -> overlap_map f = Ok omap ->
    adjust_tiles_in cg ilu triangles orders f omap m ts = Ok ts' ->
    adjust_tiles_in cg ilu triangles orders f omap m (map (pick ks) ts) = Ok (map (pick ks) ts').
  Proof using Hk.
    intros ts ts' omap Hd Hr P Hom. rewrite (overlap_map_ok f ts Hd) in Hom. injection Hom as <-. unfold adjust_tiles_in.
    generalize (degrees m). intros l. remember (length ts) as n eqn:En. revert ts En Hd Hr P. induction l as [|d l IH]; intros ts En Hd Hr P H; cbn [fold_res] in *.
    - injection H as <-. reflexivity.
    - destruct (adjust_pass _ _ _ _ _ _ ts d) as [ts1|] eqn:E; [|discriminate]. cbn [bind] in H. subst n.
      rewrite (pick_pass _ _ _ _ Hd Hr (P d) E). cbn [bind].
      apply (pass_ok cg ilu triangles f nb) in E as (K & Hr1 & _); auto. pose proof K as [L _].
      apply (IH ts1); auto. eapply recorded_kept; eauto.
  Qed.

  Lemma join_adjust m : forall ts ts' omap, recorded f ts -> (forall t, In t ts -> ready nb t) ->
    (forall d, Permutation (orders d) (seq 0 (length ts))) -> overlap_map f = Ok omap ->
    adjust_tiles_in cg ilu triangles orders f omap m (map (pick ks) ts) = Ok ts' ->
    exists ts1, adjust_tiles_in cg ilu triangles orders f omap m ts = Ok ts1.
  Proof using Hk Hks.
    intros ts ts' omap Hd Hr P Hom. rewrite (overlap_map_ok f ts Hd) in Hom. injection Hom as <-. unfold adjust_tiles_in.
    generalize (degrees m). intros l. remember (length ts) as n eqn:En. revert ts En Hd Hr P. induction l as [|d l IH]; intros ts En Hd Hr P H; cbn [fold_res] in *.
    - eauto.
    - destruct (adjust_pass _ _ _ _ _ _ (map (pick ks) ts) d) as [ts2|] eqn:E; [|discriminate]. cbn [bind] in H. subst n.
      destruct (join_pass _ _ _ _ Hd Hr (P d) E) as (ts1 & E1). rewrite E1. cbn [bind].
      pose proof (pick_pass _ _ _ _ Hd Hr (P d) E1) as E2. rewrite E in E2. injection E2 as ->.
      apply (pass_ok cg ilu triangles f nb) in E1 as (K & Hr1 & _); auto. pose proof K as [L _].
      apply (IH ts1); auto. eapply recorded_kept; eauto.
  Qed.
End Pick.

(** Merging a band of a batch is merging it alone. *)
Lemma index_of_lt b l k : index_of b l = Some k -> (k < length l)%nat /\ nth_error l k = Some b.
Proof.
  revert k. induction l as [|a l IH]; intros k H; [discriminate|]. cbn in H. destruct (Nat.eqb_spec a b) as [->|_].
  - injection H as <-. cbn. split; [lia|auto].
  - destruct (index_of b l) as [j|]; [|discriminate]. injection H as <-. destruct (IH j eq_refl). cbn. split; [lia|auto].
Qed.

Lemma fold_left_map {A B C} (g : A -> B -> A) (h : C -> B) l : forall a, fold_left g (map h l) a = fold_left (fun a c => g a (h c)) l a.
Proof. induction l; intros a0; cbn; auto. Qed.

Lemma fold_left_ext_in {A B} (g h : A -> B -> A) l : (forall a b, In b l -> g a b = h a b) -> forall a, fold_left g l a = fold_left h l a.
Proof. induction l as [|b l IH]; intros K a; [auto|]. cbn. rewrite K by now left. apply IH. intros; apply K; now right. Qed.

Lemma pick_merged bands ts idx ks j sh : ts <> [] -> NoDup bands -> NoDup ks -> below ks (length bands) -> (forall t, In t ts -> mergeable bands t) ->
  (forall t x, In t ts -> contains t x = true -> in_shape sh x = true) -> nth_error (map (fun k => nth k bands O) ks) j = Some idx ->
  merged_band (map (pick ks) ts) idx sh = merged_band ts idx sh.
Proof.
  intros Ne Nd Nk Hb Hm Hs Hj.
  assert (j < length ks)%nat as Bj by (rewrite <- (map_length (fun k => nth k bands O)); apply nth_error_Some; congruence).
  pose proof (nth_error_nth _ _ O Hj) as Ej. rewrite (map_nth' _ _ _ O) in Ej by auto. set (k := nth j ks O) in *.
  assert (In k ks) as Ik by now apply nth_In. pose proof (Hb k Ik) as Bk.
  assert (nth_error bands k = Some idx) as Hk by (rewrite <- Ej; now apply nth_error_nth').
  rewrite (merged_total bands ts idx sh k) by auto.
  assert (forall t, In t ts -> wide (length bands) t) as Hw.
  { intros t I. destruct (Hm t I) as (T & E & _). split; [auto|]. now rewrite E. }
  assert (forall m, nth j (pm ks m) [] = nth k m []) as Hp.
  { intros m. unfold pm. rewrite (map_nth' _ _ _ O) by auto. reflexivity. }
  rewrite (merged_total (map (fun k => nth k bands O) ks) (map (pick ks) ts) idx sh j); auto.
  - rewrite !fold_left_map.
    rewrite (fold_left_ext_in (fun a c => accumulate a (coords (pick ks c)) (nth j (uw_phase (pick ks c)) []))
                              (fun a t => accumulate a (coords t) (nth k (uw_phase t) []))).
    + set (a := fold_left _ ts acc0).
      rewrite (fold_left_ext_in (fun a0 c => write_around (band_model a) a0 (coords (pick ks c)) (nth j (raw_uw_phase (pick ks c)) []))
                                (fun r t => write_around (band_model a) r (coords t) (nth k (raw_uw_phase t) []))); [reflexivity|].
      intros r t I. unfold raw_uw_phase. now rewrite (pick_uw (length bands) ks Hb t 0 (Hw t I)), Hp.
    + intros a t I. now rewrite (pick_uw_phase (length bands) ks Hb t (Hw t I)), Hp.
  - destruct ts; [contradiction|discriminate].
  - apply (NoDup_nth _ O). rewrite map_length. intros p q Bp Bq E. rewrite !(map_nth' _ _ _ O) in E by auto.
    apply (proj1 (NoDup_nth bands O) Nd) in E; [|apply Hb, nth_In, Bp|apply Hb, nth_In, Bq].
    now apply (proj1 (NoDup_nth ks O) Nk).
  - intros t I. apply in_map_iff in I as (t0 & <- & I). destruct (Hm t0 I) as (([Lr Hr] & Hc) & E & L & N). rewrite E in Lr, Hc.
    assert (t_idx (pick ks t0) = map (fun k => nth k bands O) ks) as Et by (cbn [pick t_idx]; now rewrite E).
    split; [split|split; [|split]]; auto; rewrite Et.
    + split; [rewrite map_length; apply pm_length|]. intros row Ir. apply in_map_iff in Ir as (r & <- & Ir). apply Hr, nth_In. rewrite Lr. auto.
    + intros c Ic. cbn [pick t_corr] in Ic. apply in_map_iff in Ic as (c0 & <- & Ic). destruct (Hc c0 Ic) as [L0 H0].
      split; [rewrite map_length; apply pm_length|]. intros row Ir. apply in_map_iff in Ir as (r & <- & Ir). apply H0, nth_In. rewrite L0. auto.
  - intros t x I C. apply in_map_iff in I as (t0 & <- & I). eapply Hs; eauto.
Qed.

(** Loading the bands and applying their bulk offsets. *)
Section Start.
  Variables (fl : tile_file) (jj : nat) (bulk : list (list Q)).
  Hypothesis Hf : file_ok fl.

  Lemma start_ok idx t : start_tile fl jj bulk idx = Ok t -> NoDup (tf_points fl) ->
    ready (length idx) t /\ t_file t = fl /\ t_idx t = idx /\
    forall k p, (k < length idx)%nat -> (p < length (tf_points fl))%nat ->
      let b := nth k idx O in
      at_ (t_raw t) k p == at_ (tf_uw fl) b p + nth b (tf_offset fl) 0 /\
      at_ (uw_phase t) k p == at_ (tf_uw fl) b p + nth b (tf_offset fl) 0 - twopi * nth jj (nth b bulk []) 0.
  Proof using Hf.
    intros H Nd. unfold start_tile in H. destruct (reset_band_index fl idx) as [t0|] eqn:E0; [|discriminate]. cbn [bind] in H.
    apply reset_ok in E0 as (T0 & F0 & I0 & C0 & L0 & R0); [|auto].
    destruct (negb _); [discriminate|].
    destruct (add_correction t0 _) as [t1|] eqn:E1; [|discriminate]. cbn [bind] in H. injection H as <-.
    apply add_ok in E1 as (m & -> & T1 & Sm & V); [|auto|exact I]. rewrite C0 in *. cbn [app] in *. rewrite I0 in *.
    assert (npoints t0 = length (tf_points fl)) as Np by (unfold npoints, coords, file_coords; now rewrite F0, map_length).
    assert (NoDup (coords t0)) as Nc.
    { unfold coords, file_coords. rewrite F0. apply FinFun.Injective_map_NoDup; [|auto]. intros [x y] [x' y'] E. cbn in E. injection E as E1 E2. f_equal; lia. }
    split; [|split; [exact F0|split; [reflexivity|]]].
    - split; [exact T1|]. split; [reflexivity|]. split; [cbn; lia|]. split; [reflexivity|exact Nc].
    - intros k p Hk Hp. cbn zeta. set (b := nth k idx O). cbn [increment_correction t_raw]. pose proof (R0 k p Hk Hp) as R. fold b in R. split; [rewrite R; reflexivity|].
      assert (tile_ok (increment_correction (Tile (t_file t0) idx (t_raw t0) [m] (t_level t0)))) as Tok by exact T1.
      unfold uw_phase. rewrite (uw_at _ Tok) by (cbn [increment_correction t_idx]; try exact Hk; change (npoints _) with (npoints t0); lia).
      cbn [increment_correction t_level t_corr t_raw]. rewrite L0. cbn [firstn map]. unfold sumQ. cbn [fold_right]. rewrite R.
      rewrite V by lia. cbn [value]. rewrite map_length.
      destruct (length idx =? 1)%nat eqn:E1.
      + assert (k = O) as -> by lia. rewrite (map_nth' _ _ _ O) by auto. fold b. ring.
      + rewrite Nat.eqb_refl. rewrite (map_nth' _ _ _ O) by auto. fold b. ring.
  Qed.

  Lemma start_bands idx t : start_tile fl jj bulk idx = Ok t -> increasing idx = true.
  Proof using.
    intros H. unfold start_tile in H. destruct (reset_band_index fl idx) as [t0|] eqn:E0; [|discriminate].
    unfold reset_band_index in E0. destruct idx as [|i idx]; [discriminate|]. destruct (increasing (i :: idx)); [auto|discriminate].
  Qed.

  Lemma broadcast_column n np l : length l = n -> broadcast n np (A1 l) = Ok (map (fun q => repeat q np) l).
  Proof using.
    intros <-. destruct l as [|q [|q' l]]; [reflexivity|reflexivity|]. cbn [broadcast]. now rewrite Nat.eqb_refl.
  Qed.

  Lemma pick_start idx t ks : start_tile fl jj bulk idx = Ok t -> below ks (length idx) -> ks <> [] ->
    increasing (map (fun k => nth k idx O) ks) = true ->
    start_tile fl jj bulk (map (fun k => nth k idx O) ks) = Ok (pick ks t).
  Proof using.
    intros H Hk Nk Hi. unfold start_tile in *. destruct (reset_band_index fl idx) as [t0|] eqn:E0; [|discriminate]. cbn [bind] in H.
    unfold reset_band_index in *. destruct idx as [|i0 idx0] eqn:Ei; [discriminate|]. rewrite <- Ei in *. clear Ei i0 idx0.
    set (idk := map (fun k => nth k idx O) ks) in *.
    assert (forall b, In b idk -> In b idx) as Inc by (intros b I; apply in_map_iff in I as (k & <- & I); apply nth_In; auto).
    destruct (increasing idx); [|discriminate]. cbn [negb] in E0.
    destruct (forallb (fun b => (b <? length (tf_uw fl)) && (b <? length (tf_offset fl)))%nat idx) eqn:Fb; [|discriminate]. cbn [negb] in E0. injection E0 as <-.
    destruct (forallb _ idx) eqn:Fo in H; [|discriminate]. cbn [negb] in H. rewrite forallb_forall in Fb, Fo.
    destruct idk as [|i1 idk1] eqn:Ek; [unfold idk in Ek; now destruct ks|]. rewrite <- Ek in *. rewrite Hi. cbn [negb].
    rewrite (proj2 (forallb_forall _ idk)) by auto. cbn [negb bind].
    rewrite (proj2 (forallb_forall _ idk)) by auto. cbn [negb].
    unfold add_correction in *. cbn [t_idx t_file t_raw t_corr t_level length] in *.
    change (npoints (Tile fl idk ?r [] 0)) with (length (file_coords fl)).
    change (npoints (Tile fl idx ?r [] 0)) with (length (file_coords fl)) in H. set (np := length (file_coords fl)) in *.
    rewrite broadcast_column in * by apply map_length. cbn [bind] in *. injection H as <-.
    unfold increment_correction, pick, pm. cbn [t_idx t_file t_raw t_corr t_level map app]. unfold idk. f_equal. f_equal.
    - rewrite map_map. apply map_ext_in. intros k I. now rewrite (map_nth' _ _ _ O) by auto.
    - f_equal. rewrite !map_map. apply map_ext_in. intros k I. now rewrite (map_nth' _ _ _ O) by auto.
  Qed.
End Start.

Lemma increasing_tail a l : increasing (a :: l) = true -> increasing l = true.
Proof. destruct l; [reflexivity|]. cbn [increasing]. rewrite andb_true_iff. intros [_ H]. exact H. Qed.

Lemma increasing_nodup l : increasing l = true -> NoDup l.
Proof.
  assert (forall l a, increasing (a :: l) = true -> forall x, In x l -> (a < x)%nat) as K.
  { clear. induction l as [|b l IH]; intros a H x I; [destruct I|]. pose proof (increasing_tail _ _ H) as H'. cbn [increasing] in H.
    apply andb_true_iff in H as [H _]. destruct I as [<-|I]; [lia|]. specialize (IH b H' x I). lia. }
  induction l as [|a l IH]; intros H; [constructor|]. constructor.
  - intros I. specialize (K l a H a I). lia.
  - apply IH. now apply increasing_tail in H.
Qed.

(** ** A whole batch *)
Section Batch.
  Variables (cg : list (list Q) -> list Q -> list Q) (ilu : list (list Q) -> bool)
            (triangles : list (Z * Z) -> res (list (nat * nat * nat))).
  Variables (f : overlap_file) (omap : list (list nat)) (max_degree : nat) (bulk : list (list Q)) (sh : Z * Z) (files : list tile_file).
  Hypothesis Hfiles : forall fl, In fl files -> file_ok fl /\ NoDup (tf_points fl).
  Hypothesis Hom : overlap_map f = Ok omap.
  Hypothesis Hdesc : forall ts, map t_file ts = files -> recorded f ts.

  Lemma started idx ts : start_tiles files bulk idx = Ok ts ->
    map t_file ts = files /\ (forall t, In t ts -> ready (length idx) t /\ t_idx t = idx) /\
    forall i, (i < length files)%nat ->
      start_tile (nth i files (TileFile [] (BBox 0 0 0 0) [] [])) i bulk idx = Ok (tl ts i).
  Proof using Hfiles.
    intros H. unfold start_tiles in H. apply map_res_nth in H as [L K]. rewrite combine_length, seq_length, Nat.min_id in *.
    set (df := TileFile [] (BBox 0 0 0 0) [] []).
    assert (forall i, (i < length files)%nat -> start_tile (nth i files df) i bulk idx = Ok (tl ts i)) as K'.
    { intros i Bi. specialize (K i (O, df) dtile Bi). rewrite nth_combine in K by (rewrite ?seq_length; auto). rewrite seq_nth in K by auto. exact K. }
    assert (forall i, (i < length files)%nat -> ready (length idx) (tl ts i) /\ t_file (tl ts i) = nth i files df /\ t_idx (tl ts i) = idx) as R.
    { intros i Bi. pose proof (K' i Bi) as E. destruct (Hfiles (nth i files df)) as [F N]; [now apply nth_In|].
      apply start_ok in E as (R1 & R2 & R3 & _); auto. }
    split; [|split].
    - apply (nth_ext _ _ df df); [rewrite map_length; auto|]. rewrite map_length. intros i Bi. rewrite (map_nth' _ _ _ dtile) by auto.
      apply R. lia.
    - intros t I. apply (In_nth _ _ dtile) in I as (i & Bi & <-). destruct (R i ltac:(lia)) as (R1 & _ & R3). auto.
    - exact K'.
  Qed.

  Lemma batch_bands idx outs : files <> [] -> merge_batch cg ilu triangles f omap max_degree bulk sh files idx = Ok outs -> NoDup idx.
  Proof using Hfiles Hdesc.
    intros Ne H. unfold merge_batch in H. destruct (start_tiles files bulk idx) as [ts|] eqn:E; [|discriminate].
    apply started in E as (_ & _ & K). apply increasing_nodup. destruct files as [|fl l]; [contradiction|].
    eapply start_bands. apply (K O). cbn; lia.
  Qed.

  (** Some of the bands of a batch come out as if they were merged without the
      others. *)
  Lemma batch_part idx outs ks : files <> [] -> merge_batch cg ilu triangles f omap max_degree bulk sh files idx = Ok outs ->
    below ks (length idx) -> ks <> [] -> increasing (map (fun k => nth k idx O) ks) = true ->
    length outs = length idx /\
    forall d, merge_batch cg ilu triangles f omap max_degree bulk sh files (map (fun k => nth k idx O) ks) = Ok (map (fun k => nth k outs d) ks).
  Proof using Hfiles Hom Hdesc.
    intros Ne H Hk Nk Hi. pose proof (batch_bands _ _ Ne H) as Nd. unfold merge_batch in *.
    destruct (start_tiles files bulk idx) as [ts|] eqn:E; [|discriminate]. cbn [bind] in H.
    pose proof E as E0. apply started in E0 as (F & R & K).
    destruct (adjust_tiles _ _ _ f omap max_degree ts) as [ts'|] eqn:Ea; [|discriminate]. cbn [bind] in H.
    apply map_res_nth in H as [Lo Ho]. split; [auto|]. intros d.
    assert (recorded f ts) as Hd by now apply Hdesc.
    assert (length ts = length files) as Lt by (rewrite <- F; now rewrite map_length).
    assert (start_tiles files bulk (map (fun k => nth k idx O) ks) = Ok (map (pick ks) ts)) as ->.
    { unfold start_tiles in *. rewrite <- (map_id (combine (seq 0 (length files)) files)).
      eapply (map_res_map (fun jf => start_tile (snd jf) (fst jf) bulk idx) _ (fun x => x) (pick ks)); [|exact E].
      intros i da db Bi Es. now apply pick_start with (idx := idx). }
    cbn [bind]. unfold adjust_tiles in *. rewrite map_length.
    rewrite (pick_adjust (length idx) ks Hk cg ilu triangles f (fun _ => seq 0 (length ts)) max_degree ts ts' omap); auto;
      [|intros t I; apply R, I].
    cbn [bind]. apply (adjust_kept cg ilu triangles f (length idx)) in Ea as (Kp & Rr); auto; [|intros t I; apply R, I].
    assert (ts' <> []) as Ne'. { intros E'. destruct Kp as [L _]. rewrite E' in L. destruct files; [contradiction|]. cbn in *. lia. }
    assert (forall t, In t ts' -> mergeable idx t) as Mg.
    { intros t I. destruct (Rr t I) as (T1 & T2 & T3 & T4 & T5). split; [auto|]. split; [|split; auto].
      apply (In_nth _ _ dtile) in I as (i & Bi & <-). destruct Kp as [L Kp]. destruct (Kp i) as (_ & -> & _). apply R, nth_In. lia. }
    assert (NoDup ks) as Nks.
    { apply increasing_nodup in Hi. now apply NoDup_map_inv in Hi. }
    assert (forall j, (j < length ks)%nat -> merged_band (map (pick ks) ts') (nth (nth j ks O) idx O) sh = Ok (nth (nth j ks O) outs d)) as Hj.
    { intros j Bj. assert (In (nth j ks O) ks) as Ij by now apply nth_In. pose proof (Ho (nth j ks O) O d (Hk _ Ij)) as Hok.
      rewrite (pick_merged idx ts' _ ks j sh); auto.
      - destruct (nth (nth j ks O) outs d) as [[arr diff] model].
        apply (merged_values idx ts' (nth (nth j ks O) idx O) (nth j ks O) sh Nd Mg (nth_error_nth' idx O (Hk _ Ij)) arr diff model Hok).
      - rewrite nth_error_map, (nth_error_nth' ks O Bj). reflexivity. }
    clear -Hj. set (l := ks) in Hj at 1. change (map (fun k => nth k idx O) ks) with (map (fun k => nth k idx O) l).
    change (map (fun k => nth k outs d) ks) with (map (fun k => nth k outs d) l).
    assert (forall k, In k l -> merged_band (map (pick ks) ts') (nth k idx O) sh = Ok (nth k outs d)) as K.
    { intros k I. apply (In_nth _ _ O) in I as (j & Bj & <-). now apply Hj. }
    clearbody l. clear Hj. induction l as [|k l IH]; [reflexivity|]. cbn [map map_res]. rewrite K by now left. cbn [bind].
    rewrite IH; [reflexivity|]. intros j I. apply K. now right.
  Qed.

  (** Each band of a batch comes out as if it were merged alone. *)
  Lemma batch_alone idx outs k : files <> [] -> merge_batch cg ilu triangles f omap max_degree bulk sh files idx = Ok outs ->
    (k < length idx)%nat ->
    length outs = length idx /\
    forall d, merge_batch cg ilu triangles f omap max_degree bulk sh files [nth k idx O] = Ok [nth k outs d].
  Proof using Hfiles Hom Hdesc.
    intros Ne H Hk. apply (batch_part idx outs [k]) in H; auto.
    - intros j [<-|[]]. exact Hk.
    - discriminate.
  Qed.

  (** Bands that can be merged alone can be merged together. *)
  Lemma batch_join idx : files <> [] -> idx <> [] -> increasing idx = true ->
    (forall b, In b idx -> exists o, merge_batch cg ilu triangles f omap max_degree bulk sh files [b] = Ok o) ->
    exists outs, merge_batch cg ilu triangles f omap max_degree bulk sh files idx = Ok outs.
  Proof using Hfiles Hom Hdesc.
    intros Ne Ni Hi H. unfold merge_batch.
    assert (exists ts, start_tiles files bulk idx = Ok ts) as (ts & Es).
    { unfold start_tiles. apply map_res_ok_iff. intros [j fl] I. cbn [fst snd].
      assert (forall b, In b idx -> exists t, start_tile fl j bulk [b] = Ok t) as K.
      { intros b Ib. destruct (H b Ib) as (o & Ho). unfold merge_batch in Ho. destruct (start_tiles files bulk [b]) as [ts|] eqn:E; [|discriminate].
        unfold start_tiles in E. destruct (proj1 (map_res_ok_iff _ _) (ex_intro _ ts E) (j, fl) I) as (t & Et). eauto. }
      clear -K Ni Hi. unfold start_tile in *. unfold reset_band_index in *. destruct idx as [|i0 idx0] eqn:Ei; [contradiction|]. rewrite <- Ei in *. clear Ei i0 idx0.
      rewrite Hi. cbn [negb]. cbn [increasing negb] in K.
      rewrite (proj2 (forallb_forall _ idx)); cbn [negb bind].
      - rewrite (proj2 (forallb_forall _ idx)); cbn [negb].
        + unfold add_correction. cbn [t_idx]. rewrite broadcast_column by apply map_length. cbn [bind]. eauto.
        + intros b I. destruct (K b I) as (t & E). cbn [forallb] in E.
          destruct (negb (_ && _)%bool) in E; [discriminate|]. cbn [bind] in E. rewrite andb_true_r in E.
          match goal with |- ?X = true => destruct X end; [auto|discriminate].
      - intros b I. destruct (K b I) as (t & E). cbn [forallb] in E. rewrite andb_true_r in E.
        match goal with |- ?X = true => destruct X end; [auto|discriminate]. }
    rewrite Es. cbn [bind]. pose proof Es as E0. apply started in E0 as (F & R & _).
    assert (length ts = length files) as Lt by (rewrite <- F; now rewrite map_length).
    assert (recorded f ts) as Hd by now apply Hdesc.
    assert (forall t, In t ts -> ready (length idx) t) as Hr by (intros t I; apply R, I).
    destruct idx as [|b0 idx0] eqn:Eidx; [contradiction|]. rewrite <- Eidx in *.
    assert (below [O] (length idx)) as Hk by (intros k [<-|[]]; rewrite Eidx; cbn; lia).
    assert (start_tiles files bulk [b0] = Ok (map (pick [O]) ts)) as E0.
    { unfold start_tiles in *. rewrite <- (map_id (combine (seq 0 (length files)) files)).
      eapply (map_res_map (fun jf => start_tile (snd jf) (fst jf) bulk idx) _ (fun x => x) (pick [O])); [|exact Es].
      intros i da db Bi E1. assert (map (fun k => nth k idx O) [O] = [b0]) as Em by (rewrite Eidx; reflexivity). rewrite <- Em.
      apply pick_start with (idx := idx); auto. discriminate. }
    destruct (H b0) as (o & Ho); [rewrite Eidx; now left|]. unfold merge_batch in Ho. rewrite E0 in Ho. cbn [bind] in Ho.
    destruct (adjust_tiles cg ilu triangles f omap max_degree (map (pick [O]) ts)) as [ts1|] eqn:Ea; [|discriminate]. cbn [bind] in Ho.
    unfold adjust_tiles in Ea. rewrite map_length in Ea.
    pose proof (join_adjust (length idx) [O] Hk cg ilu triangles f ltac:(discriminate) (fun _ => seq 0 (length ts)) max_degree ts ts1 omap Hd Hr
       (fun _ => Permutation_refl _) Hom Ea) as (ts' & Ea').
    pose proof (pick_adjust (length idx) [O] Hk cg ilu triangles f (fun _ => seq 0 (length ts)) max_degree ts ts' omap Hd Hr
       (fun _ => Permutation_refl _) Hom Ea') as Ep. rewrite Ep in Ea. injection Ea as <-.
    change (adjust_tiles cg ilu triangles f omap max_degree ts = Ok ts') in Ea'. rewrite Ea'. cbn [bind].
    pose proof Ea' as Ek. unfold adjust_tiles in Ek. apply (adjust_kept cg ilu triangles f (length idx)) in Ek as (Kp & Rr); auto.
    assert (ts' <> []) as Ne'. { intros E'. destruct Kp as [L _]. rewrite E' in L. destruct files; [contradiction|]. cbn in *. lia. }
    assert (forall t, In t ts' -> mergeable idx t) as Mg.
    { intros t I. destruct (Rr t I) as (T1 & T2 & T3 & T4 & T5). split; [auto|]. split; [|split; auto].
      apply (In_nth _ _ dtile) in I as (i & Bi & <-). destruct Kp as [L Kp]. destruct (Kp i) as (_ & -> & _). apply R, nth_In. lia. }
    apply map_res_ok_iff. intros b Ib. apply (In_nth _ _ O) in Ib as (k & Bk & <-).
    rewrite (merged_total idx ts' (nth k idx O) sh k); auto.
    - eauto.
    - now apply increasing_nodup.
    - intros t x I C. cbn [map_res] in Ho. destruct (merged_band (map (pick [O]) ts') b0 sh) as [r|] eqn:Em; [|discriminate]. clear Ho.
      unfold merged_band in Em. destruct (negb _); [discriminate|]. destruct (negb _); [discriminate|]. destruct (index_of _ _); [|discriminate].
      destruct (forallb (fun t => forallb (in_shape sh) (coords t)) (map (pick [O]) ts')) eqn:Es'; [|discriminate].
      rewrite forallb_forall in Es'. specialize (Es' (pick [O] t) (in_map _ _ _ I)). rewrite forallb_forall in Es'.
      apply contains_spec in C as (p & P). eapply Es', nth_error_In. exact P.
    - now apply nth_error_nth'.
  Qed.
End Batch.
