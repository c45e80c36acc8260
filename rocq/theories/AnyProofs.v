(** Runs that cannot fail, whatever the data: overlaps and bulk offsets of tiles that
    agree up to whole cycles at every shared pixel, not the same number everywhere. *)
From Verif Require Import Base BaseLemmas PoolProofs GraphModel GraphSpec TileModel TileSpec TileProofs OverlapModel OverlapSpec OverlapProofs BulkModel BulkSpec BulkProofs
  MergeModel MergeSpec AdjustProofs DescribeProofs Props_Tile Props_Overlap Props_Bulk Props_Merge PipelineSpec ExactSpec ExactMergeProofs ExactBulkProofs TotalProofs.
From Coq Require Import String.
From Coq Require Import List ZifyBool Lqa Permutation.
Import ListNotations.
Set Default Goal Selector "!".
Local Open Scope Z_scope.
Opaque twopi.

Section Overlaps.
  Variables (comps : nat -> list (nat * nat) -> list nat) (min_points : Z) (files : list tile_file) (t : tileset) (H W : Z).
  Notation F n := (nth n files dfile).
  Hypothesis Hl : forall n e, length (comps n e) = n.
  Hypothesis Hn : length files = ntiles t.
  Hypothesis Ht : forall n, (n < ntiles t)%nat -> tf_tile (F n) = tile_at t n.
  Hypothesis Hp : forall fl, In fl files -> NoDup (tf_points fl).
  Hypothesis Hg : forall fl, In fl files -> in_grid H W (file_coords fl).
  Hypothesis Hfit : H * W <= 2 ^ 32.
  Variables (bands : nat).
  Hypothesis Hb : forall fl, In fl files -> tile_bands bands fl.
  Hypothesis Hwhole : forall k i j p p' x, (k < bands)%nat -> found files x i p -> found files x j p' ->
    exists n, Z.abs n <= 32767 /\ (MergeSpec.phase_of (F j) k p' - MergeSpec.phase_of (F i) k p == twopi * inject_Z n)%Q.
  Hypothesis Hne : forall fl, In fl files -> tf_points fl <> [].
  Hypothesis Hmin : 11 <= min_points.

  Lemma pair_any i j : (i < j < ntiles t)%nat -> exists o, overlap_pair min_points files t (i, j) = Ok o.
  Proof using Hn Ht Hp Hg Hfit Hb Hwhole Hne Hmin.
    intros B. assert (In (F i) files /\ In (F j) files) as [Ii Ij] by (split; apply nth_In; lia).
    unfold overlap_pair. fold dfile. pose proof (Hb _ Ii) as Ti. pose proof (Hb _ Ij) as Tj.
    assert (fst (load_uw_tile (F i) (nth i (tiles t) (BBox 0 0 0 0))) = file_coords (F i)) as P1.
    { unfold load_uw_tile, file_coords. cbn [fst]. rewrite (Ht i) by lia. reflexivity. }
    assert (fst (load_uw_tile (F j) (nth j (tiles t) (BBox 0 0 0 0))) = file_coords (F j)) as P2.
    { unfold load_uw_tile, file_coords. cbn [fst]. rewrite (Ht j) by lia. reflexivity. }
    destruct (load_uw_tile (F i) _) as [pt1 uw1] eqn:E1. destruct (load_uw_tile (F j) _) as [pt2 uw2] eqn:E2. cbn [fst] in P1, P2.
    assert (forall fl, In fl files -> file_coords fl <> []) as Nc.
    { intros fl I X. apply (Hne fl I). unfold file_coords in X. destruct (tf_points fl); [reflexivity|discriminate]. }
    destruct (C33_common_points_partial 32 H W pt1 pt2) as (c1 & c2 & Ef & Lc & Eq & _ & _).
    { lia. } { rewrite P1. auto. } { rewrite P2. auto. } { rewrite P1. auto. } { rewrite P2. auto. } { exact Hfit. }
    rewrite Ef. cbn [bind]. destruct (Z.ltb_spec (Z.of_nat (length c1)) min_points) as [L|L]; [eauto|].
    pose proof (taken_array (F i) (nth i (tiles t) (BBox 0 0 0 0)) bands c1 Ti) as [A1 Q1].
    pose proof (taken_array (F j) (nth j (tiles t) (BBox 0 0 0 0)) bands c2 Tj) as [A2 Q2].
    rewrite E1 in A1, Q1. rewrite E2 in A2, Q2. cbn [snd] in *. rewrite <- Lc in *.
    assert (length pt1 = length (tf_points (F i))) as L1 by (injection E1 as <- _; apply map_length).
    assert (length pt2 = length (tf_points (F j))) as L2 by (injection E2 as <- _; apply map_length).
    destruct (C34_whole_cycles bands (length c1) _ _ A1 A2 ltac:(lia)) as [K _].
    destruct (proj2 K) as (R & ->); [|cbn [bind]; eauto].
    intros b p Bb Bp. destruct (Eq p Bp) as (B1 & B2 & E).
    assert (nth_error (file_coords (F i)) (nth p c1 O) = Some (at_pt pt1 (nth p c1 O))) as X1 by (rewrite <- P1; now apply nth_error_nth').
    assert (nth_error (file_coords (F j)) (nth p c2 O) = Some (at_pt pt1 (nth p c1 O))) as X2 by (rewrite E, <- P2; now apply nth_error_nth').
    destruct (Hwhole b i j (nth p c1 O) (nth p c2 O) (at_pt pt1 (nth p c1 O)) Bb) as (n & Bn & En).
    { exists (F i). split; [apply nth_error_nth'; lia|exact X1]. }
    { exists (F j). split; [apply nth_error_nth'; lia|exact X2]. }
    exists n. apply whole_tol; [lia|]. rewrite Q1, Q2 by (auto; lia). change OverlapSpec.phase_of with MergeSpec.phase_of. exact En.
  Qed.

  Lemma overlaps_any : exists f, compute_phasediff_deciles comps min_points files t = Ok f.
  Proof using Hn Ht Hp Hg Hfit Hb Hwhole Hne Hmin.
    unfold compute_phasediff_deciles. destruct (map_res_total (overlap_pair min_points files t) (get_overlaps t)) as (gs & ->); [|cbn [bind]; eauto].
    intros [i j] I. apply pair_any. destruct (C26_overlaps t) as (O1 & _). now apply O1.
  Qed.

  (** A recorded median fits sixteen bits, whatever the phases. *)
  Lemma median_bound f k g i j : compute_phasediff_deciles comps min_points files t = Ok f ->
    (k < bands)%nat -> In g (of_groups f) -> og_pair g = (i, j) -> Z.abs (nth 5 (nth k (og_stats g) []) 0) <= 32768.
  Proof using Hl Hn Ht Hp Hg Hfit Hb.
    intros Hc Hk I E. destruct (group_pair comps min_points files t f H W Hc Hl Hn Ht Hp Hg Hfit g I) as (i' & j' & E' & B & Ok_). rewrite E in E'. injection E' as <- <-.
    assert (In (F i) files /\ In (F j) files) as [Ii Ij] by (split; apply nth_In; lia).
    pose proof (C34_recorded_stats min_points files t i j g bands) as K. cbv beta zeta in K. fold dfile in K.
    destruct (K (Hb _ Ii) (Hb _ Ij) Ok_) as (_ & kk & Dd & K1 & K2).
    destruct (K2 k Hk) as ((_ & Mono & (p & Bp & Ep) & _ & (p' & Bp' & Ep') & _) & _ & Tz).
    pose proof (Mono 0%nat 5%nat ltac:(lia)) as M1. pose proof (Mono 5%nat 10%nat ltac:(lia)) as M2. rewrite Ep in M1. rewrite Ep' in M2.
    destruct (K1 k p Hk Bp) as [R1 _]. destruct (K1 k p' Hk Bp') as [R2 _]. destruct (Tz 5%nat ltac:(lia)) as [T1 T2].
    assert (inject_Z (-32768) <= inject_Z (kk k p))%Q as L1 by (rewrite <- Zle_Qle; lia).
    assert (inject_Z (kk k p') <= inject_Z 32767)%Q as L2 by (rewrite <- Zle_Qle; lia).
    set (m := nth 5 (nth k (og_stats g) []) 0) in *. set (x := nth 5 (Dd k) 0%Q) in *. clearbody m x.
    destruct (Qlt_le_dec x 0) as [C|C].
    - specialize (T2 C). assert (inject_Z (m - 1) < inject_Z 0)%Q as X1 by (rewrite inject_Z_sub; change (inject_Z 0) with 0%Q; change (inject_Z 1) with 1%Q; lra).
      assert (inject_Z (-32768) <= inject_Z m)%Q as X2 by lra. rewrite <- Zlt_Qlt in X1. rewrite <- Zle_Qle in X2. lia.
    - specialize (T1 C). assert (inject_Z m <= inject_Z 32767)%Q as X1 by lra.
      assert (inject_Z 0 < inject_Z (m + 1))%Q as X2 by (rewrite inject_Z_plus; change (inject_Z 0) with 0%Q; change (inject_Z 1) with 1%Q; lra).
      rewrite <- Zle_Qle in X1. rewrite <- Zlt_Qlt in X2. lia.
  Qed.

  Lemma bulk_any f solve lsq method arr : compute_phasediff_deciles comps min_points files t = Ok f -> of_overlaps f <> [] ->
    method = "integer"%string /\ mip_complete solve /\ components_ok comps \/ method = "L2"%string ->
    exists O R, get_bulk_offsets solve lsq method f t arr = Ok (O, R).
  Proof using Hl Hn Ht Hp Hg Hfit Hb.
    intros Hc No Hm. destruct (computed comps min_points files t f Hc Hl) as (_ & _ & _ & Eo & Ec).
    assert (forall g, In g (of_groups f) -> exists i j, og_pair g = (i, j) /\ (i < j < ntiles t)%nat) as Gp.
    { intros g I. destruct (group_pair comps min_points files t f H W Hc Hl Hn Ht Hp Hg Hfit g I) as (i & j & E & B & _). eauto. }
    assert (forall p, In p (of_overlaps f) -> (fst p < snd p < ntiles t)%nat) as Hr.
    { intros p I. rewrite Eo in I. apply in_map_iff in I as (g & <- & I). destruct (Gp g I) as (i & j & -> & B). exact B. }
    assert (0 < ntiles t)%nat as Pos by (destruct (of_overlaps f) as [|p ps]; [contradiction|]; specialize (Hr p (or_introl eq_refl)); lia).
    unfold get_bulk_offsets.
    destruct (map_res_total (fun p => match find (fun g => (fst (og_pair g) =? fst p)%nat && (snd (og_pair g) =? snd p)%nat) (of_groups f) with
       | Some g => Ok g | None => Err KeyError end) (of_overlaps f)) as (gs & Egs).
    { intros p I. rewrite Eo in I. apply in_map_iff in I as (g & <- & I). destruct (find _ _) as [g'|] eqn:Ef; [eauto|].
      pose proof (find_none _ _ Ef g I) as X. cbv beta in X. rewrite !Nat.eqb_refl in X. discriminate. }
    rewrite Egs. cbn [bind]. apply map_res_nth in Egs as [Lg Kg].
    assert (forall q, (q < length (of_overlaps f))%nat -> exists g, nth q gs (OGroup (O, O) [] [] []) = g /\ In g (of_groups f) /\ og_pair g = nth q (of_overlaps f) (O, O)) as Gq.
    { intros q Bq. specialize (Kg q (O, O) (OGroup (O, O) [] [] []) Bq). destruct (find _ _) as [g|] eqn:Ef; [|discriminate]. injection Kg as <-.
      apply find_some in Ef as [I E]. exists g. split; [reflexivity|]. split; [exact I|]. destruct (og_pair g), (nth q (of_overlaps f) (O, O)). cbn [fst snd] in E. f_equal; lia. }
    assert (length gs <> O) as Lgs by (rewrite Lg; destruct (of_overlaps f); [contradiction|discriminate]).
    destruct gs as [|g0 gs']; [contradiction|]. remember (g0 :: gs') as gs eqn:Eg0.
    destruct (map (fun g => map (fun row => nth 5 row 0) (og_stats g)) gs) as [|first rest] eqn:Eoff; [subst gs; discriminate|]. rewrite <- Eoff.
    assert (length first = bands) as Lf.
    { rewrite Eg0 in Eoff. cbn [map] in Eoff. injection Eoff as <- _. rewrite map_length.
      destruct (Gq O) as (g & Eg & Ig & Eqp); [rewrite <- Lg; lia|]. rewrite Eg0 in Eg. cbn in Eg. subst g.
      destruct (og_pair g0) as [i j] eqn:Ep. apply (group_bands comps min_points files t f H W Hc Hl Hn Ht Hp Hg Hfit bands Hb g0 i j Ig Ep). }
    rewrite Lf.
    assert (forall b q, (b < bands)%nat -> (q < length (of_overlaps f))%nat ->
      Z.abs (nth q (map (fun x => nth b x 0) (map (fun g => map (fun row => nth 5 row 0) (og_stats g)) gs)) 0) <= 32768) as Md.
    { intros b q Bb Bq. destruct (Gq q Bq) as (g & Eg & Ig & _). destruct (Gp g Ig) as (i & j & Ep & Bij).
      rewrite map_map. rewrite (map_nth' _ _ _ (OGroup (O, O) [] [] [])) by lia. rewrite Eg.
      pose proof (group_bands comps min_points files t f H W Hc Hl Hn Ht Hp Hg Hfit bands Hb g i j Ig Ep) as Ls.
      rewrite (map_nth' _ _ _ []) by lia.
      apply (median_bound f b g i j Hc Bb Ig Ep). }
    set (offs := map (fun g => map (fun row => nth 5 row 0) (og_stats g)) gs) in *.
    assert (of_conn_comp f = comps (ntiles t) (of_overlaps f)) as Ecc.
    { clear -Hc. unfold compute_phasediff_deciles in Hc. destruct (map_res _ _); [|discriminate]. cbn [bind] in Hc. now injection Hc as <-. }
    destruct Hm as [(-> & Hcm & _ & Hco)| ->].
    - cbn [String.eqb Ascii.eqb Bool.eqb].
      destruct (map_res_total (fun ii => solve_int_offsets solve (of_overlaps f) (of_conn_comp f) (map (fun x => nth ii x 0) offs) (map (count_valid arr) (tiles t))) (seq 0 bands)) as (sols & ->); [|cbn [bind]; eauto].
      intros b I. apply in_seq in I. destruct (Hco (ntiles t) (of_overlaps f) Pos) as [Hco1 Hco2]; [intros p J; apply Hr in J; lia|].
      destruct (C35_total solve (of_overlaps f) (of_conn_comp f) (map (fun x => nth b x 0) offs) (map (count_valid arr) (tiles t)) Hcm) as (n & v & E).
      + split; [intros X; rewrite X in Ec; cbn in Ec; lia|]. rewrite Ecc. split; [exact Hco1|]. intros p J. rewrite Hl. apply Hr in J. lia.
      + intros q Bq. specialize (Md b q ltac:(lia) Bq). lia.
      + eauto.
    - cbn [String.eqb Ascii.eqb Bool.eqb]. unfold solve_l2_min.
      destruct (existsb (fun p => (ntiles t <=? fst p)%nat || (ntiles t <=? snd p)%nat) (of_overlaps f)) eqn:Ex.
      { apply existsb_exists in Ex as (p & I & E). apply Hr in I. lia. }
      destruct (of_overlaps f) as [|p0 ps] eqn:Eol; [contradiction|]. rewrite <- Eol in *.
      destruct (map_res_total (l2_min lsq (map (diff_row (ntiles t)) (of_overlaps f))) (map (fun ii => map inject_Z (map (fun x => nth ii x 0) offs)) (seq 0 bands))) as (rs & ->).
      { intros b I. apply in_map_iff in I as (ii & <- & _). unfold l2_min. unfold offs. rewrite !map_length, Lg, Nat.eqb_refl. cbn [negb]. eauto. }
      cbn [bind]. destruct (argmax (map (count_valid arr) (tiles t))) as [c|e] eqn:Ea; [cbn [bind]; eauto|].
      exfalso. unfold argmax in Ea. destruct (map _ (tiles t)) eqn:Et; [|discriminate]. unfold ntiles in Pos. destruct (tiles t); [cbn in Pos; lia|discriminate].
  Qed.

  (** Shape of the offsets: one row per band, one number per tile. *)
  Lemma bulk_shape f solve lsq method arr O R k : compute_phasediff_deciles comps min_points files t = Ok f ->
    get_bulk_offsets solve lsq method f t arr = Ok (O, R) ->
    (method = "integer"%string -> mip_sound solve) -> (method = "L2"%string -> forall a b, a <> [] -> length (lsq a b) = length (nth 0 a [])) -> (k < bands)%nat ->
    length O = bands /\ length (nth k O []) = ntiles t.
  Proof using Hl Hn Ht Hp Hg Hfit Hb.
    intros Hc E Hms Hlsq Hk. destruct (computed comps min_points files t f Hc Hl) as (_ & _ & _ & Eo & Ec). revert E.
    unfold get_bulk_offsets. destruct (map_res _ (of_overlaps f)) as [groups|] eqn:EG; [|discriminate]. cbn [bind].
    destruct groups as [|g0 gr] eqn:Egr; [discriminate|]. cbn [map].
    assert (length (map (fun row => nth 5 row 0) (og_stats g0)) = bands) as Lb.
    { rewrite map_length. apply map_res_nth in EG as [Lg Kg]. specialize (Kg 0%nat (0, 0)%nat g0). cbn [length nth] in Lg, Kg. specialize (Kg ltac:(lia)).
      destruct (find _ _) as [g|] eqn:Ef; [|discriminate]. injection Kg as ->. apply find_some in Ef as [I0 _].
      destruct (og_pair g0) as [i j] eqn:Ep. apply (group_bands comps min_points files t f H W Hc Hl Hn Ht Hp Hg Hfit bands Hb g0 i j I0 Ep). }
    rewrite Lb. destruct (String.eqb_spec method "integer"%string) as [->|Ni].
    - destruct (map_res _ (seq 0 bands)) as [sols|] eqn:ES; [|discriminate]. cbn [bind]. intros E. injection E as <- <-. rewrite map_length.
      apply map_res_nth in ES as [LS KS]. rewrite seq_length in LS. split; [exact LS|].
      specialize (KS k 0%nat ([], 0) ltac:(now rewrite seq_length)). rewrite (map_nth' _ _ _ ([], 0)) by lia. rewrite map_length.
      destruct (nth k sols ([], 0)) as [n v]. cbn [fst]. destruct (C35_offsets _ _ _ _ _ _ _ (Hms eq_refl) KS) as [-> _]. exact Ec.
    - destruct (String.eqb_spec method "L2"%string) as [E2|]; [|discriminate]. unfold solve_l2_min. destruct (existsb _ _); [discriminate|].
      destruct (of_overlaps f) as [|p0 ps] eqn:Eol; [discriminate|].
      destruct (map_res (l2_min _ _) _) as [rs|] eqn:ES; [|discriminate]. cbn [bind]. destruct (argmax _); [|discriminate]. cbn [bind]. intros E. injection E as <- <-. rewrite map_length.
      apply map_res_nth in ES as [LS KS]. rewrite map_length, seq_length in LS. split; [exact LS|].
      specialize (KS k [] ([], []) ltac:(now rewrite map_length, seq_length)). rewrite (map_nth' _ _ _ ([], [])) by lia. rewrite map_length.
      unfold l2_min in KS. destruct (negb _); [discriminate|]. injection KS as <-. cbn [fst]. rewrite (Hlsq E2) by discriminate.
      cbn [map nth]. unfold diff_row. now rewrite !upd_length, repeat_length.
  Qed.
End Overlaps.
