(** The recorded overlaps describe the shared pixels of the tiles. *)
From Verif Require Import Base BaseLemmas PoolProofs TileModel TileSpec TileProofs OverlapModel OverlapSpec OverlapProofs
  BulkProofs MergeModel MergeSpec AdjustProofs Props_Tile Props_Overlap.
From Coq Require Import List ZifyBool Permutation.
Import ListNotations.
Set Default Goal Selector "!".
Local Open Scope Z_scope.

Definition dfile : tile_file := TileFile [] (BBox 0 0 0 0) [] [].

Section Describe.
  Variables (comps : nat -> list (nat * nat) -> list nat) (min_points : Z) (files : list tile_file) (t : tileset)
            (f : overlap_file) (H W : Z).
  Notation F n := (nth n files dfile).
  Hypothesis Hc : compute_phasediff_deciles comps min_points files t = Ok f.
  Hypothesis Hl : forall n e, length (comps n e) = n.
  Hypothesis Hn : length files = ntiles t.
  Hypothesis Ht : forall n, (n < ntiles t)%nat -> tf_tile (F n) = tile_at t n.
  Hypothesis Hp : forall fl, In fl files -> NoDup (tf_points fl).
  Hypothesis Hg : forall fl, In fl files -> in_grid H W (file_coords fl).
  Hypothesis Hfit : H * W <= 2 ^ 32.
  Hypothesis Hin : forall n x, (n < ntiles t)%nat -> In x (file_coords (F n)) -> has_pixel (tile_at t n) (fst x) (snd x).
  Hypothesis Hmin : forall i j, (i < j < ntiles t)%nat -> common_pixels (F i) (F j) <> [] ->
    min_points <= Z.of_nat (length (common_pixels (F i) (F j))).

  Lemma fcoords_nodup fl : In fl files -> NoDup (file_coords fl).
  Proof using Hn Hp files t.
    intros I. unfold file_coords. apply FinFun.Injective_map_NoDup; [|auto]. intros [x y] [x' y'] E. cbn in E. injection E as E1 E2. f_equal; lia.
  Qed.

  Lemma in_common x a b : In x (common_pixels a b) <-> In x (file_coords a) /\ In x (file_coords b).
  Proof using.
    unfold common_pixels. rewrite filter_In, existsb_exists. split.
    - intros (I & y & I' & E). apply point_eqb_spec in E as <-. auto.
    - intros [I I']. split; [auto|]. exists x. split; [auto|apply point_eqb_refl].
  Qed.

  Lemma load_points n : (n < ntiles t)%nat -> fst (load_uw_tile (F n) (tile_at t n)) = file_coords (F n).
  Proof using Ht. intros B. unfold load_uw_tile, file_coords. cbn [fst]. now rewrite (Ht n B). Qed.

  Lemma pair_recorded i j g : (i < j < ntiles t)%nat -> overlap_pair min_points files t (i, j) = Ok (Some g) ->
    og_pair g = (i, j) /\ length (og_c1 g) = length (og_c2 g) /\ NoDup (og_c1 g) /\ NoDup (og_c2 g) /\
    forall p q, In (p, q) (combine (og_c1 g) (og_c2 g)) <->
      exists x, nth_error (file_coords (F i)) p = Some x /\ nth_error (file_coords (F j)) q = Some x.
  Proof using Ht Hp Hg Hfit Hn.
    intros B E.
    assert (In (F i) files /\ In (F j) files) as [Ii Ij] by (split; apply nth_In; lia).
    pose proof (C33_recorded_overlap min_points files t i j g H W) as K. cbv beta zeta in K. fold dfile in K.
    rewrite !load_points in K by lia. specialize (K (Hg _ Ii) (Hg _ Ij) Hfit E). destruct K as (K1 & K2 & K3 & K4 & K5 & K6).
    assert (forall k, (k < length (og_c1 g))%nat -> (nth k (og_c1 g) O < length (file_coords (F i)))%nat /\
       (nth k (og_c2 g) O < length (file_coords (F j)))%nat) as R.
    { clear -E Ht B. unfold overlap_pair in E. fold dfile in E. destruct (load_uw_tile (F i) _) as [p1 u1] eqn:E1.
      destruct (load_uw_tile (F j) _) as [p2 u2] eqn:E2.
      pose proof (load_points i ltac:(lia)) as P1. pose proof (load_points j ltac:(lia)) as P2. unfold tile_at in P1, P2. rewrite E1 in P1. rewrite E2 in P2. cbn in P1, P2. subst p1 p2.
      destruct (find_common_points _ _ _) as [[c1 c2]|] eqn:Ec; [|discriminate]. cbn [bind] in E. destruct (_ <? _); [discriminate|].
      destruct (pairwise_unwrapped_diff_deciles _ _); [|discriminate]. cbn [bind] in E. injection E as <-. cbn [og_c1 og_c2]. now apply common_range in Ec as [_ R]. }
    pose proof (fcoords_nodup _ Ii) as Ni. pose proof (fcoords_nodup _ Ij) as Nj.
    assert (forall k, (k < length (og_c1 g))%nat -> exists x, nth_error (file_coords (F i)) (nth k (og_c1 g) O) = Some x /\
       nth_error (file_coords (F j)) (nth k (og_c2 g) O) = Some x) as X.
    { intros k Bk. destruct (R k Bk) as [R1 R2]. exists (at_pt (file_coords (F i)) (nth k (og_c1 g) O)). split.
      - now apply nth_error_nth'.
      - rewrite (K4 k Bk). now apply nth_error_nth'. }
    assert (forall (l : list (Z * Z)) p q x, NoDup l -> nth_error l p = Some x -> nth_error l q = Some x -> p = q) as U.
    { intros l p q x N E1 E2. assert (p < length l)%nat by (apply nth_error_Some; congruence). apply (proj1 (NoDup_nth_error l) N); auto. congruence. }
    split; [auto|]. split; [auto|]. split; [now apply NoDup_map_inv in K5|]. split.
    - apply (NoDup_nth _ O). intros k l Bk Bl E'. rewrite <- K3 in *. apply (proj1 (NoDup_nth (map (at_pt (file_coords (F i))) (og_c1 g)) (0, 0)) K5); try (now rewrite map_length).
      rewrite !(map_nth' _ _ _ O) by auto. rewrite !K4 by auto. now rewrite E'.
    - intros p q. split.
      + intros I. apply (In_nth _ _ (O, O)) in I as (k & Bk & Ek). rewrite combine_length, <- K3, Nat.min_id in Bk.
        rewrite combine_nth in Ek by auto. injection Ek as <- <-. auto.
      + intros (x & E1 & E2).
        assert (In x (map (at_pt (file_coords (F i))) (og_c1 g))) as Ix by (apply K6; split; eapply nth_error_In; eauto).
        apply in_map_iff in Ix as (p' & Ep' & Ip'). apply (In_nth _ _ O) in Ip' as (k & Bk & Ek). destruct (X k Bk) as (y & Y1 & Y2).
        destruct (R k Bk) as [R1 R2].
        assert (y = x) as ->. { rewrite Ek in Y1. unfold at_pt in Ep'. erewrite nth_error_nth in Ep' by exact Y1. congruence. }
        rewrite (U _ _ _ _ Ni E1 Y1), (U _ _ _ _ Nj E2 Y2). rewrite <- combine_nth by auto. apply nth_In. rewrite combine_length. lia.
  Qed.

  (** A pair that is skipped shares too few pixels. *)
  Lemma pair_few i j : (i < j < ntiles t)%nat -> overlap_pair min_points files t (i, j) = Ok None ->
    Z.of_nat (length (common_pixels (F i) (F j))) < min_points.
  Proof using Ht Hp Hg Hfit Hn.
    intros B E.
    assert (In (F i) files /\ In (F j) files) as [Ii Ij] by (split; apply nth_In; lia).
    unfold overlap_pair in E. fold dfile in E. destruct (load_uw_tile (F i) _) as [p1 u1] eqn:E1.
    destruct (load_uw_tile (F j) _) as [p2 u2] eqn:E2.
    pose proof (load_points i ltac:(lia)) as P1. pose proof (load_points j ltac:(lia)) as P2. unfold tile_at in P1, P2. rewrite E1 in P1. rewrite E2 in P2. cbn in P1, P2. subst p1 p2.
    destruct (find_common_points _ _ _) as [[c1 c2]|] eqn:Ec; [|discriminate]. cbn [bind] in E.
    assert (length c1 = length (common_pixels (F i) (F j))) as L.
    { assert (file_coords (F i) <> []) as N1 by (intros E'; rewrite E' in Ec; discriminate).
      assert (file_coords (F j) <> []) as N2 by (intros E'; rewrite E' in Ec; destruct (file_coords (F i)); discriminate).
      destruct (C33_common_points_partial 32 H W (file_coords (F i)) (file_coords (F j))) as (ii & jj & Ef & Lf & Eq & Nd & In_); auto; [lia|].
      rewrite Ef in Ec. injection Ec as -> ->.
      rewrite <- (map_length (at_pt (file_coords (F i))) c1). apply Permutation_length, NoDup_Permutation; auto.
      - apply NoDup_filter, fcoords_nodup, Ii.
      - intros x. rewrite In_, in_common. reflexivity. }
    destruct (Z.ltb_spec (Z.of_nat (length c1)) min_points); [lia|].
    destruct (pairwise_unwrapped_diff_deciles _ _); discriminate.
  Qed.

  Lemma pair_skipped i j : (i < j < ntiles t)%nat -> overlap_pair min_points files t (i, j) = Ok None -> common_pixels (F i) (F j) = [].
  Proof using Ht Hp Hg Hfit Hn Hmin.
    intros B E. apply pair_few in E; [|exact B]. destruct (common_pixels (F i) (F j)) eqn:Ec; [auto|exfalso].
    pose proof (Hmin i j B ltac:(rewrite Ec; discriminate)) as M. rewrite Ec in M. lia.
  Qed.

  Lemma computed : exists gs, map_res (overlap_pair min_points files t) (get_overlaps t) = Ok gs /\
    of_groups f = flat_map (fun g => match g with Some g => [g] | None => [] end) gs /\
    of_overlaps f = map og_pair (of_groups f) /\ length (of_conn_comp f) = ntiles t.
  Proof using Hc Hl.
    unfold compute_phasediff_deciles in Hc. destruct (map_res _ (get_overlaps t)) as [gs|]; [|discriminate]. cbn [bind] in Hc. injection Hc as <-.
    exists gs. cbn [of_groups of_overlaps of_conn_comp]. auto.
  Qed.

  (** A pair that shares enough pixels is recorded. *)
  Lemma computed_pair i j : (i < j < ntiles t)%nat -> common_pixels (F i) (F j) <> [] ->
    min_points <= Z.of_nat (length (common_pixels (F i) (F j))) -> In (i, j) (of_overlaps f).
  Proof using Hc Hl Hn Ht Hp Hg Hfit Hin.
    intros B Ne M. destruct (common_pixels (F i) (F j)) as [|x l] eqn:Ec; [contradiction|].
    assert (In x (common_pixels (F i) (F j))) as Ix by (rewrite Ec; now left). apply in_common in Ix as [Xi Xj].
    destruct computed as (gs & Eg & Ef & Eo & _). destruct (C26_overlaps t) as (_ & _ & _ & O4).
    pose proof (map_res_nth _ _ _ Eg) as [Lg Kg].
    assert (In (i, j) (get_overlaps t)) as Io by (apply (O4 i j (fst x) (snd x)); auto; apply Hin; auto; lia).
    apply (In_nth _ _ (O, O)) in Io as (k & Bk & Ek). specialize (Kg k (O, O) None Bk). rewrite Ek in Kg.
    destruct (nth k gs None) as [g|] eqn:En.
    - rewrite Eo. apply in_map_iff. exists g. split; [apply (pair_recorded i j g ltac:(lia) Kg)|]. rewrite Ef. apply in_flat_map.
      exists (Some g). split; [rewrite <- En; apply nth_In; lia|now left].
    - apply pair_few in Kg; [|lia]. rewrite Ec in Kg. lia.
  Qed.

  Lemma computed_recorded : recorded_files f files.
  Proof using Hc Hl Hn Ht Hp Hg Hfit.
    intros ts Ets. destruct computed as (gs & Eg & Ef & Eo & Ec). destruct (C26_overlaps t) as (O1 & O2 & _ & O4).
    assert (length ts = ntiles t) as Lts by (rewrite <- Hn, <- Ets; now rewrite map_length).
    assert (forall i, (i < ntiles t)%nat -> coords (nth i ts dtile) = file_coords (F i)) as Ci.
    { intros i B. unfold coords. f_equal. rewrite <- Ets. symmetry. apply map_nth'. lia. }
    pose proof (map_res_nth _ _ _ Eg) as [Lg Kg].
    assert (forall g, In g (of_groups f) -> exists i j, og_pair g = (i, j) /\ In (i, j) (get_overlaps t) /\
      overlap_pair min_points files t (i, j) = Ok (Some g)) as G.
    { intros g I. rewrite Ef in I. apply in_flat_map in I as (o & Io & Ig). destruct o as [g'|]; [|destruct Ig]. destruct Ig as [->|[]].
      apply (In_nth _ _ None) in Io as (k & Bk & Ek). rewrite Lg in Bk. specialize (Kg k (O, O) None Bk). rewrite Ek in Kg.
      destruct (nth k (get_overlaps t) (O, O)) as [i j] eqn:Ep. exists i, j.
      assert (In (i, j) (get_overlaps t)) as Ip by (rewrite <- Ep; now apply nth_In).
      split; [|split; auto]. apply (pair_recorded i j g (O1 i j Ip) Kg). }
    unfold recorded. fold dtile. rewrite Lts. split; [auto|]. split; [|split].
    - rewrite Eo, Ef. clear -O2 Eg G O1 Ef Ht Hp Hg Hfit Hn. 
      assert (forall l gs, NoDup l -> (forall i j, In (i, j) l -> (i < j < ntiles t)%nat) ->
        map_res (overlap_pair min_points files t) l = Ok gs ->
        let gr := flat_map (fun g => match g with Some g => [g] | None => [] end) gs in
        NoDup (map og_pair gr) /\ forall p, In p (map og_pair gr) -> In p l) as K; [|apply (K _ _ O2 O1 Eg)].
      clear -Ht Hp Hg Hfit Hn. induction l as [|[i j] l IH]; intros gs N B E; cbn [map_res] in E.
      + injection E as <-. split; [constructor|auto].
      + destruct (overlap_pair _ _ _ (i, j)) as [o|] eqn:Eo; [|discriminate]. cbn [bind] in E.
        destruct (map_res _ l) as [gs'|] eqn:E'; [|discriminate]. cbn [bind] in E. injection E as <-.
        apply NoDup_cons_iff in N as [N1 N2]. destruct (IH gs' N2) as [I1 I2]; auto; [intros; apply B; now right|].
        cbn zeta. cbn [flat_map]. destruct o as [g|]; cbn [app map].
        * destruct (pair_recorded i j g (B i j (or_introl eq_refl)) Eo) as (Eg & _). rewrite Eg. split.
          -- constructor; [intros I; apply N1, I2, I|auto].
          -- intros p [<-|I]; [now left|right; auto].
        * split; [auto|]. intros p I. right. auto.
    - intros i j I. rewrite Eo in I. apply in_map_iff in I as (g & Ep & Ig). destruct (G g Ig) as (i' & j' & Ep' & Io & _).
      rewrite Ep in Ep'. injection Ep' as <- <-. destruct (O1 i j Io). repeat split; auto. exists g. auto.
    - intros g i j Ig Ep. destruct (G g Ig) as (i' & j' & Ep' & Io & Eq). rewrite Ep in Ep'. injection Ep' as <- <-.
      pose proof (O1 i j Io) as B. destruct (pair_recorded i j g B Eq) as (_ & A1 & A2 & A3 & A4).
      split; [auto|]. split; [auto|]. split; [auto|]. intros p q. rewrite A4. unfold point_of. rewrite !Ci by lia. reflexivity.
  Qed.

  Lemma computed_describes : describes_files f files.
  Proof using Hc Hl Hn Ht Hp Hg Hfit Hin Hmin.
    intros ts Ets. split; [now apply computed_recorded|].
    destruct computed as (gs & Eg & Ef & Eo & Ec). destruct (C26_overlaps t) as (O1 & O2 & _ & O4).
    assert (length ts = ntiles t) as Lts by (rewrite <- Hn, <- Ets; now rewrite map_length).
    assert (forall i, (i < ntiles t)%nat -> coords (nth i ts dtile) = file_coords (F i)) as Ci.
    { intros i B. unfold coords. f_equal. rewrite <- Ets. symmetry. apply map_nth'. lia. }
    pose proof (map_res_nth _ _ _ Eg) as [Lg Kg].
    unfold complete. fold dtile. rewrite Lts.
    intros i j x Hij Hj Cx Cy. apply contains_spec in Cx as (p & P), Cy as (q & Q0). unfold point_of in P, Q0.
      rewrite Ci in P, Q0 by lia. pose proof (nth_error_In _ _ P) as Ip. pose proof (nth_error_In _ _ Q0) as Iq.
      assert (In (i, j) (get_overlaps t)) as Io. { apply (O4 i j (fst x) (snd x)); auto; apply Hin; auto; lia. }
      apply (In_nth _ _ (O, O)) in Io as (k & Bk & Ek). specialize (Kg k (O, O) None Bk). rewrite Ek in Kg.
      destruct (nth k gs None) as [g|] eqn:En.
    - rewrite Eo. apply in_map_iff. exists g. split; [apply (pair_recorded i j g ltac:(lia) Kg)|]. rewrite Ef. apply in_flat_map.
        exists (Some g). split; [rewrite <- En; apply nth_In; lia|now left].
    - apply pair_skipped in Kg; [|lia]. assert (In x (common_pixels (F i) (F j))) as Ix by (apply in_common; auto).
        rewrite Kg in Ix. destruct Ix.
  Qed.
End Describe.
