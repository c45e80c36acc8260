(** The corrections of one tile. *)
From Verif Require Import Base BaseLemmas PoolProofs TileModel OverlapModel BulkModel BulkProofs MergeModel MergeSpec.
From Coq Require Import List ZifyBool Lqa.
Import ListNotations.
Set Default Goal Selector "!".
Local Open Scope Q_scope.

Lemma madd_shape a b nb np : has_shape a nb np -> has_shape b nb np -> has_shape (madd a b) nb np.
Proof.
  intros [La Ha] [Lb Hb]. unfold madd. split; [rewrite map_length, combine_length; lia|].
  intros row I. apply in_map_iff in I as ([r s] & <- & I). cbn. rewrite map_length, combine_length.
  rewrite (Ha r), (Hb s); [lia|eapply in_combine_r; eauto|eapply in_combine_l; eauto].
Qed.

Lemma zero_shape a nb np : has_shape a nb np -> has_shape (zero_like a) nb np.
Proof.
  intros [La Ha]. unfold zero_like. split; [now rewrite map_length|].
  intros row I. apply in_map_iff in I as (r & <- & I). rewrite map_length. auto.
Qed.

Lemma shape_nth m nb np b : has_shape m nb np -> (b < nb)%nat -> length (nth b m []) = np.
Proof. intros [L H] Hb. apply H, nth_In. lia. Qed.

Lemma at_madd a b nb np i p : has_shape a nb np -> has_shape b nb np -> (i < nb)%nat -> (p < np)%nat ->
  at_ (madd a b) i p = at_ a i p + at_ b i p.
Proof.
  intros Ha Hb Hi Hp. unfold at_, madd. pose proof (shape_nth _ _ _ _ Ha Hi) as Ra. pose proof (shape_nth _ _ _ _ Hb Hi) as Rb.
  destruct Ha as [La _], Hb as [Lb _].
  rewrite (map_nth' _ _ _ ([], [])) by (rewrite combine_length; lia).
  rewrite combine_nth by lia. cbn [fst snd].
  rewrite (map_nth' _ _ _ (0, 0)) by (rewrite combine_length; lia).
  rewrite combine_nth by lia. reflexivity.
Qed.

Lemma at_zero a i p : at_ (zero_like a) i p == 0.
Proof.
  unfold at_, zero_like. destruct (Nat.lt_ge_cases i (length a)) as [H|H].
  - rewrite (map_nth' _ _ _ []) by auto. destruct (Nat.lt_ge_cases p (length (nth i a []))) as [K|K].
    + rewrite (map_nth' _ _ _ 0) by auto. reflexivity.
    + rewrite nth_overflow by now rewrite map_length. reflexivity.
  - rewrite (nth_overflow (map _ _)) by now rewrite map_length. destruct p; reflexivity.
Qed.

Lemma fold_madd l : forall a nb np, has_shape a nb np -> (forall c, In c l -> has_shape c nb np) ->
  has_shape (fold_left madd l a) nb np /\
  forall i p, (i < nb)%nat -> (p < np)%nat ->
    at_ (fold_left madd l a) i p == at_ a i p + sumQ (map (fun c => at_ c i p) l).
Proof.
  induction l as [|c l IH]; intros a nb np Ha Hl.
  - split; [exact Ha|]. intros. cbn [fold_left map]. unfold sumQ. cbn [fold_right]. ring.
  - cbn [fold_left]. destruct (IH (madd a c) nb np) as [S1 S2].
    + apply madd_shape; [auto|apply Hl; now left].
    + intros d I. apply Hl. now right.
    + split; [auto|]. intros i p Hi Hp. rewrite S2 by auto. rewrite (at_madd _ _ nb np) by (auto; apply Hl; now left).
      cbn [map sumQ fold_right]. unfold sumQ. ring.
Qed.

Lemma firstn_In {A} (x : A) n l : In x (firstn n l) -> In x l.
Proof. intros H. rewrite <- (firstn_skipn n l). apply in_or_app. now left. Qed.

Section OneTile.
  Variable t : tile.
  Hypothesis Ht : tile_ok t.
  Let nb := length (t_idx t).
  Let np := npoints t.

  Lemma uw_shape level : has_shape (get_uw_phase t level) nb np.
  Proof using Ht.
    destruct Ht as [Hr Hc]. unfold get_uw_phase, get_corrections_sum, msum. apply madd_shape; [auto|].
    apply fold_madd; [now apply zero_shape|]. intros c I. apply Hc. eapply firstn_In; eauto.
  Qed.

  Lemma uw_at level b p : (b < nb)%nat -> (p < np)%nat ->
    at_ (get_uw_phase t level) b p ==
    at_ (t_raw t) b p + sumQ (map (fun c => at_ c b p) (firstn level (t_corr t))).
  Proof using Ht.
    intros Hb Hp. destruct Ht as [Hr Hc]. unfold get_uw_phase, get_corrections_sum, msum.
    destruct (fold_madd (firstn level (t_corr t)) (zero_like (t_raw t)) nb np) as [S1 S2].
    - now apply zero_shape.
    - intros c I. apply Hc. eapply firstn_In; eauto.
    - rewrite (at_madd _ _ nb np) by auto. rewrite S2 by auto. rewrite at_zero. ring.
  Qed.
End OneTile.

Lemma repeat_shape row nb np : length row = np -> has_shape (repeat row nb) nb np.
Proof.
  intros H. split; [apply repeat_length|]. intros r I. apply repeat_spec in I. congruence.
Qed.

Lemma at_repeat row nb b p : (b < nb)%nat -> at_ (repeat row nb) b p = nth p row 0.
Proof. intros H. unfold at_. now rewrite nth_repeat_lt. Qed.

Lemma broadcast_ok nb np a m : rectangular a -> broadcast nb np a = Ok m ->
  has_shape m nb np /\ forall b p, (b < nb)%nat -> (p < np)%nat -> at_ m b p = value nb a b p.
Proof.
  intros Hr H. assert (forall q, broadcast nb np (ANum q) = Ok m ->
    has_shape m nb np /\ forall b p, (b < nb)%nat -> (p < np)%nat -> at_ m b p = q) as K.
  { intros q E. cbn in E. assert (m = repeat (repeat q np) nb) as -> by congruence. split.
    - apply repeat_shape, repeat_length.
    - intros b p Hb Hp. rewrite at_repeat, nth_repeat_lt; auto. }
  destruct a as [q|l|ncols rows].
  - apply (K q H).
  - destruct l as [|q [|q' l]].
    + cbn [broadcast length value Nat.eqb] in *. destruct nb as [|nb]; [|].
      * cbn in H. assert (m = []) as -> by congruence. split; [|lia]. split; [auto|]. intros r [].
      * cbn in H. destruct np as [|np]; [|discriminate]. cbn in H. assert (m = repeat [] (S nb)) as -> by (cbn; congruence). split; [|lia].
        now apply repeat_shape.
    + apply (K q H).
    + set (l' := q :: q' :: l) in *. cbn [value]. replace (length l' =? 1)%nat with false by reflexivity.
      change (broadcast nb np (A1 l')) with (if (length l' =? nb)%nat then Ok (map (fun q => repeat q np) l')
        else if (length l' =? np)%nat then Ok (repeat l' nb) else Err ValueError) in H.
      destruct (length l' =? nb)%nat eqn:E.
      * assert (m = map (fun q => repeat q np) l') as -> by congruence. split; [split|].
        -- rewrite map_length. lia.
        -- intros row I. apply in_map_iff in I as (x & <- & _). apply repeat_length.
        -- intros b p Hb Hp. unfold at_. rewrite (map_nth' _ _ _ 0) by lia. now rewrite nth_repeat_lt.
      * destruct (length l' =? np)%nat eqn:E'; [|discriminate].
        assert (m = repeat l' nb) as -> by congruence. split; [apply repeat_shape; lia|].
        intros b p Hb Hp. now rewrite at_repeat.
  - cbn [rectangular] in Hr.
    assert (forall row, rows = [row] -> length row = np -> has_shape (repeat row nb) nb np /\
      forall b p, (b < nb)%nat -> (p < np)%nat -> at_ (repeat row nb) b p = value nb (A2 ncols rows) b p) as K1.
    { intros row -> L. split; [now apply repeat_shape|]. intros b p Hb Hp. rewrite at_repeat by auto.
      cbn [value length Nat.eqb nth]. destruct (length row =? 1)%nat eqn:E; [|auto]. f_equal. lia. }
    assert (length rows = nb -> (forall row, In row rows -> length row = np) ->
      has_shape rows nb np /\ forall b p, (b < nb)%nat -> (p < np)%nat -> at_ rows b p = value nb (A2 ncols rows) b p) as K2.
    { intros L R. split; [now split|]. intros b p Hb Hp. cbn [value]. destruct (length rows =? 1)%nat eqn:E; [|reflexivity].
      assert (b = 0)%nat as -> by lia. unfold at_. destruct rows as [|row [|]]; try discriminate. cbn [nth].
      specialize (R row (or_introl eq_refl)). destruct (length row =? 1)%nat eqn:E1; [|auto]. f_equal. lia. }
    destruct rows as [|[|q [|q' row]] rows].
    + cbn [broadcast] in H. destruct (ncols =? np)%nat eqn:E; [|discriminate]. cbn [negb length] in H.
      destruct (0 =? nb)%nat eqn:E1; [|discriminate]. assert (m = []) as -> by congruence. apply K2; [cbn; lia|]. intros r [].
    + cbn [broadcast] in H. destruct (ncols =? np)%nat eqn:E; [|discriminate]. cbn [negb] in H.
      destruct (length ([] :: rows) =? nb)%nat eqn:E1.
      * assert (m = [] :: rows) as -> by congruence. apply K2; [lia|]. intros r I. rewrite (Hr r I). lia.
      * destruct rows; [|discriminate]. assert (m = repeat [] nb) as -> by congruence. apply K1; [auto|]. rewrite (Hr [] (or_introl eq_refl)). lia.
    + destruct rows as [|r2 rows].
      * cbn [broadcast value length nth Nat.eqb] in *. apply (K q). exact H.
      * cbn [broadcast] in H. destruct (ncols =? np)%nat eqn:E; [|discriminate]. cbn [negb] in H.
        destruct (length ([q] :: r2 :: rows) =? nb)%nat eqn:E1; [|discriminate].
        assert (m = [q] :: r2 :: rows) as -> by congruence. apply K2; [lia|]. intros r I. rewrite (Hr r I). lia.
    + cbn [broadcast] in H. destruct (ncols =? np)%nat eqn:E; [|discriminate]. cbn [negb] in H.
      destruct (length ((q :: q' :: row) :: rows) =? nb)%nat eqn:E1.
      * assert (m = (q :: q' :: row) :: rows) as -> by congruence. apply K2; [lia|]. intros r I. rewrite (Hr r I). lia.
      * destruct rows; [|discriminate]. assert (m = repeat (q :: q' :: row) nb) as -> by congruence. apply K1; [auto|].
        rewrite (Hr _ (or_introl eq_refl)). lia.
Qed.

Lemma add_ok t a t' : tile_ok t -> rectangular a -> add_correction t a = Ok t' ->
  exists m, t' = Tile (t_file t) (t_idx t) (t_raw t) (t_corr t ++ [m]) (t_level t) /\ tile_ok t' /\
    has_shape m (length (t_idx t)) (npoints t) /\
    forall b p, (b < length (t_idx t))%nat -> (p < npoints t)%nat -> at_ m b p = value (length (t_idx t)) a b p.
Proof.
  intros [Hr Hc] Ra H. unfold add_correction in H. destruct (broadcast _ _ a) as [m|] eqn:E; [|discriminate]. cbn [bind] in H.
  apply broadcast_ok in E as [S1 S2]; [|auto].
  assert (t' = Tile (t_file t) (t_idx t) (t_raw t) (t_corr t ++ [m]) (t_level t)) as -> by congruence.
  exists m. split; [auto|]. split; [|auto]. split; [exact Hr|].
  cbn [t_corr t_idx]. intros c I. apply in_app_or in I as [I|[<-|[]]]; [now apply Hc|exact S1].
Qed.

Lemma compress_ok t t' : tile_ok t -> compress_corrections t = Ok t' ->
  (length (t_corr t) <= 2)%nat /\ tile_ok t' /\ t_file t' = t_file t /\ t_idx t' = t_idx t /\ t_raw t' = t_raw t /\
  t_level t' = t_level t /\
  match t_corr t with
  | [c; d] => t_corr t' = [madd c d]
  | l => t_corr t' = l
  end.
Proof.
  intros [Hr Hc] H. unfold compress_corrections in H. destruct (t_corr t) as [|c [|d [|e l]]] eqn:E.
  - cbn in H. assert (t' = Tile (t_file t) (t_idx t) (t_raw t) [] (t_level t)) as -> by congruence.
    split; [cbn; lia|]. split; [split; [exact Hr|intros c []]|repeat split; auto].
  - cbn in H. assert (t' = Tile (t_file t) (t_idx t) (t_raw t) [c] (t_level t)) as -> by congruence.
    split; [cbn; lia|]. split; [split; [exact Hr|exact Hc]|repeat split; auto].
  - cbn in H. assert (t' = Tile (t_file t) (t_idx t) (t_raw t) [madd c d] (t_level t)) as -> by congruence. cbn.
    split; [lia|]. split; [|repeat split; auto]. split; [exact Hr|]. cbn [t_corr]. intros m [<-|[]]. apply madd_shape; apply Hc; cbn; auto.
  - change (removelast (d :: e :: l)) with (d :: removelast (e :: l)) in H. cbn [length Nat.ltb Nat.leb] in H. discriminate.
Qed.

Definition stored (t : tile) (b p : nat) : Q := sumQ (map (fun c => at_ c b p) (t_corr t)).
Definition total_of (nb : nat) (l : list carg) (b p : nat) : Q := sumQ (map (fun a => value nb a b p) l).

Lemma step_ok t o t' acc : tile_ok t -> (forall a, o = OAdd a -> rectangular a) -> step t o = Ok t' ->
  (forall b p, (b < length (t_idx t))%nat -> (p < npoints t)%nat -> stored t b p == total_of (length (t_idx t)) acc b p) ->
  tile_ok t' /\ t_file t' = t_file t /\ t_idx t' = t_idx t /\ t_raw t' = t_raw t /\
  forall b p, (b < length (t_idx t))%nat -> (p < npoints t)%nat ->
    stored t' b p == total_of (length (t_idx t)) (added acc [o]) b p.
Proof.
  intros Ht Hr H Ha. destruct o as [a| | |]; cbn [step] in H.
  - apply add_ok in H as (m & -> & Ht' & _ & Hm); [|auto|auto]. cbn [t_file t_idx t_raw]. split; [exact Ht'|]. split; [auto|]. split; [auto|]. split; [auto|].
    intros b p Hb Hp. unfold stored in *. cbn [t_corr]. rewrite map_app, sumQ_app. rewrite Ha by auto.
    cbn [added]. unfold total_of. rewrite map_app, sumQ_app. cbn [map sumQ fold_right]. now rewrite Hm.
  - assert (t' = increment_correction t) as -> by congruence. split; [exact Ht|]. repeat split; auto.
  - apply compress_ok in H as (L & Ht' & E1 & E2 & E3 & E4 & E5); [|auto]. split; [exact Ht'|]. split; [auto|]. split; [auto|]. split; [auto|].
    intros b p Hb Hp. cbn [added]. rewrite <- Ha by auto. unfold stored. destruct Ht as [_ Hc].
    destruct (t_corr t) as [|c [|d [|e l]]]; rewrite E5; try reflexivity.
    cbn [map sumQ fold_right]. rewrite (at_madd _ _ (length (t_idx t)) (npoints t)); auto; try (apply Hc; cbn; auto). ring.
  - assert (t' = reset_corrections t) as -> by congruence. split; [split; [exact (proj1 Ht)|intros c []]|].
    split; [auto|]. split; [auto|]. split; [auto|]. intros; reflexivity.
Qed.

Lemma added_app acc os os' : added acc (os ++ os') = added (added acc os) os'.
Proof. revert acc. induction os as [|o os IH]; intros acc; [auto|]. destruct o; cbn [app added]; apply IH. Qed.

Lemma run_ok os : forall t t' acc, tile_ok t -> all_rectangular os -> run t os = Ok t' ->
  (forall b p, (b < length (t_idx t))%nat -> (p < npoints t)%nat -> stored t b p == total_of (length (t_idx t)) acc b p) ->
  tile_ok t' /\ t_file t' = t_file t /\ t_idx t' = t_idx t /\ t_raw t' = t_raw t /\
  forall b p, (b < length (t_idx t))%nat -> (p < npoints t)%nat ->
    stored t' b p == total_of (length (t_idx t)) (added acc os) b p.
Proof.
  induction os as [|o os IH]; intros t t' acc Ht Hr H Ha.
  - cbn in H. assert (t' = t) as -> by congruence. cbn [added]. split; [exact Ht|]. repeat split; auto.
  - cbn [run] in H. destruct (step t o) as [t1|] eqn:E; [|discriminate]. cbn [bind] in H.
    apply (step_ok _ _ _ acc) in E as (T1 & E1 & E2 & E3 & S1); [|auto|intros a ->; apply Hr; now left|auto].
    apply (IH _ _ (added acc [o])) in H as (T2 & F1 & F2 & F3 & S2).
    + rewrite F1, F2, F3, E1, E2, E3. split; [auto|]. split; [auto|]. split; [auto|]. split; [auto|].
      intros b p Hb Hp. rewrite E2 in S2. unfold npoints, coords in *. rewrite E1 in S2.
      rewrite S2 by auto. change (o :: os) with ([o] ++ os). rewrite added_app. reflexivity.
    + auto.
    + intros a I. apply Hr. now right.
    + rewrite E2. unfold npoints, coords in *. rewrite E1. exact S1.
Qed.

Lemma reset_ok f idx t : file_ok f -> reset_band_index f idx = Ok t ->
  tile_ok t /\ t_file t = f /\ t_idx t = idx /\ t_corr t = [] /\ t_level t = 0%nat /\
  forall k p, (k < length idx)%nat -> (p < length (tf_points f))%nat ->
    at_ (t_raw t) k p = at_ (tf_uw f) (nth k idx 0%nat) p + nth (nth k idx 0%nat) (tf_offset f) 0.
Proof.
  intros Hf H. unfold reset_band_index in H. destruct idx as [|i0 idx0] eqn:Ei; [discriminate|]. rewrite <- Ei in *. clear Ei i0 idx0.
  destruct (increasing idx); [|discriminate]. cbn [negb] in H.
  destruct (forallb _ idx) eqn:Fb; [|discriminate]. cbn [negb] in H. rewrite forallb_forall in Fb.
  set (raw := map _ idx) in H. assert (t = Tile f idx raw [] 0) as -> by congruence.
  assert (forall k, In k idx -> length (nth k (tf_uw f) []) = length (tf_points f)) as Row.
  { intros k I. apply Hf, nth_In. specialize (Fb k I). lia. }
  cbn [t_file t_idx t_raw t_corr t_level]. split; [split|].
  - cbn [t_raw t_idx]. split; [apply map_length|]. intros row I. apply in_map_iff in I as (k & <- & I).
    rewrite map_length, Row by auto. unfold npoints, coords, file_coords. cbn. now rewrite map_length.
  - intros c [].
  - split; [auto|]. split; [auto|]. split; [auto|]. split; [auto|]. intros k p Hk Hp. unfold at_, raw. rewrite (map_nth' _ _ _ 0%nat) by auto.
    rewrite (map_nth' _ _ _ 0) by (rewrite Row; [auto|now apply nth_In]). reflexivity.
Qed.

(** The merge loop: a first correction, applied, then corrections that are
    compressed in at once. *)
Definition merge_history (a0 : carg) (l : list carg) : list op :=
  OAdd a0 :: OInc :: flat_map (fun a => [OAdd a; OCompress]) l.

Lemma added_merge a0 l : added [] (merge_history a0 l) = a0 :: l.
Proof.
  unfold merge_history. cbn [added app]. change (a0 :: l) with ([a0] ++ l). generalize [a0] as acc. induction l as [|a l IH]; intros acc.
  - cbn. now rewrite app_nil_r.
  - cbn [flat_map app added]. rewrite IH, <- app_assoc. reflexivity.
Qed.

Lemma merge_state l : forall t t', tile_ok t -> (forall a, In a l -> rectangular a) ->
  t_level t = 1%nat -> length (t_corr t) = 1%nat ->
  run t (flat_map (fun a => [OAdd a; OCompress]) l) = Ok t' -> t_level t' = 1%nat /\ length (t_corr t') = 1%nat.
Proof.
  induction l as [|a l IH]; intros t t' Ht Hr L1 L2 H.
  - cbn in H. assert (t' = t) as -> by congruence. auto.
  - cbn [flat_map app run step] in H. destruct (add_correction t a) as [t1|] eqn:E1; [|discriminate]. cbn [bind] in H.
    destruct (compress_corrections t1) as [t2|] eqn:E2; [|discriminate]. cbn [bind] in H.
    apply add_ok in E1 as (m & -> & Ht1 & _); [|auto|apply Hr; now left].
    apply compress_ok in E2 as (_ & Ht2 & _ & _ & _ & L2' & C2); [|auto]. cbn [t_corr t_level] in *.
    destruct (t_corr t) as [|c [|]]; try discriminate. cbn [app] in C2.
    eapply (IH t2); eauto; [intros b I; apply Hr; now right|congruence|now rewrite C2].
Qed.
