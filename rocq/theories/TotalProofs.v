(** Runs that cannot fail: overlaps and bulk offsets of tiles that are right up to
    whole cycles. *)
From Verif Require Import Base BaseLemmas PoolProofs GraphModel GraphSpec TileModel TileSpec TileProofs OverlapModel OverlapSpec OverlapProofs BulkModel BulkSpec BulkProofs
  MergeModel MergeSpec AdjustProofs DescribeProofs Props_Tile Props_Overlap Props_Bulk Props_Merge PipelineSpec ExactSpec ExactMergeProofs ExactBulkProofs.
From Coq Require Import String.
From Coq Require Import List ZifyBool Lqa Permutation.
Import ListNotations.
Set Default Goal Selector "!".
Local Open Scope Z_scope.
Opaque twopi.

Lemma whole_tol (d : Q) (n : Z) : -32768 <= n <= 32767 -> (d == twopi * inject_Z n)%Q -> cycles_within_tol d n.
Proof.
  intros B E. split; [exact B|]. rewrite E. setoid_replace (twopi * inject_Z n - twopi * inject_Z n)%Q with 0%Q by ring.
  change (Qabs 0) with 0%Q. pose proof twopi_pos. assert (0 <= inject_Z (Z.abs n))%Q by (change 0%Q with (inject_Z 0); rewrite <- Zle_Qle; lia).
  assert (0 <= (1 # 100) + (1 # 100000) * inject_Z (Z.abs n))%Q by lra. nra.
Qed.

Section Overlaps.
  Variables (comps : nat -> list (nat * nat) -> list nat) (min_points : Z) (files : list tile_file) (t : tileset) (H W : Z).
  Notation F n := (nth n files dfile).
  Hypothesis Hl : forall n e, length (comps n e) = n.
  Hypothesis Hn : length files = ntiles t.
  Hypothesis Ht : forall n, (n < ntiles t)%nat -> tf_tile (F n) = tile_at t n.
  Hypothesis Hp : forall fl, In fl files -> NoDup (tf_points fl).
  Hypothesis Hg : forall fl, In fl files -> in_grid H W (file_coords fl).
  Hypothesis Hfit : H * W <= 2 ^ 32.
  Variables (bands : nat).
  Hypothesis Hb : forall fl, In fl files -> tile_bands bands fl.
  Variables (D : nat -> Z * Z -> Q) (M : nat -> nat -> Z).
  Hypothesis Hright : forall k j p x, (k < bands)%nat -> found files x j p ->
    (MergeSpec.phase_of (F j) k p == D k x + twopi * inject_Z (M k j))%Q.
  Hypothesis Hsmall : forall k i j, (k < bands)%nat -> (i < ntiles t)%nat -> (j < ntiles t)%nat -> Z.abs (M k i - M k j) <= 32767.
  Hypothesis Hne : forall fl, In fl files -> tf_points fl <> [].
  Hypothesis Hmin : 11 <= min_points.

  Lemma pair_total i j : (i < j < ntiles t)%nat -> exists o, overlap_pair min_points files t (i, j) = Ok o.
  Proof using Hn Ht Hp Hg Hfit Hb Hright Hsmall Hne Hmin.
    intros B. assert (In (F i) files /\ In (F j) files) as [Ii Ij] by (split; apply nth_In; lia).
    unfold overlap_pair. fold dfile. pose proof (Hb _ Ii) as Ti. pose proof (Hb _ Ij) as Tj.
    assert (fst (load_uw_tile (F i) (nth i (tiles t) (BBox 0 0 0 0))) = file_coords (F i)) as P1.
    { unfold load_uw_tile, file_coords. cbn [fst]. rewrite (Ht i) by lia. reflexivity. }
    assert (fst (load_uw_tile (F j) (nth j (tiles t) (BBox 0 0 0 0))) = file_coords (F j)) as P2.
    { unfold load_uw_tile, file_coords. cbn [fst]. rewrite (Ht j) by lia. reflexivity. }
    destruct (load_uw_tile (F i) _) as [pt1 uw1] eqn:E1. destruct (load_uw_tile (F j) _) as [pt2 uw2] eqn:E2. cbn [fst] in P1, P2.
    assert (forall fl, In fl files -> file_coords fl <> []) as Nc.
    { intros fl I X. apply (Hne fl I). unfold file_coords in X. destruct (tf_points fl); [reflexivity|discriminate]. }
    destruct (C33_common_points_partial 32 H W pt1 pt2) as (c1 & c2 & Ef & Lc & Eq & _ & _).
    { lia. } { rewrite P1. auto. } { rewrite P2. auto. } { rewrite P1. auto. } { rewrite P2. auto. } { exact Hfit. }
    rewrite Ef. cbn [bind]. destruct (Z.ltb_spec (Z.of_nat (length c1)) min_points) as [L|L]; [eauto|].
    pose proof (taken_array (F i) (nth i (tiles t) (BBox 0 0 0 0)) bands c1 Ti) as [A1 Q1].
    pose proof (taken_array (F j) (nth j (tiles t) (BBox 0 0 0 0)) bands c2 Tj) as [A2 Q2].
    rewrite E1 in A1, Q1. rewrite E2 in A2, Q2. cbn [snd] in *. rewrite <- Lc in *.
    assert (length pt1 = length (tf_points (F i))) as L1 by (injection E1 as <- _; apply map_length).
    assert (length pt2 = length (tf_points (F j))) as L2 by (injection E2 as <- _; apply map_length).
    destruct (C34_whole_cycles bands (length c1) _ _ A1 A2 ltac:(lia)) as [K _].
    destruct (proj2 K) as (R & ->); [|cbn [bind]; eauto].
    intros b p Bb Bp. exists (M b j - M b i). destruct (Eq p Bp) as (B1 & B2 & E).
    apply whole_tol; [specialize (Hsmall b j i Bb ltac:(lia) ltac:(lia)); lia|].
    rewrite Q1, Q2 by (auto; lia). change OverlapSpec.phase_of with MergeSpec.phase_of.
    assert (nth_error (file_coords (F i)) (nth p c1 O) = Some (at_pt pt1 (nth p c1 O))) as X1 by (rewrite <- P1; now apply nth_error_nth').
    assert (nth_error (file_coords (F j)) (nth p c2 O) = Some (at_pt pt1 (nth p c1 O))) as X2 by (rewrite E, <- P2; now apply nth_error_nth').
    rewrite (Hright b i (nth p c1 O) (at_pt pt1 (nth p c1 O)) Bb), (Hright b j (nth p c2 O) (at_pt pt1 (nth p c1 O)) Bb).
    - rewrite inject_Z_sub. ring.
    - exists (F j). split; [apply nth_error_nth'; lia|exact X2].
    - exists (F i). split; [apply nth_error_nth'; lia|exact X1].
  Qed.

  Lemma overlaps_total : exists f, compute_phasediff_deciles comps min_points files t = Ok f.
  Proof using Hn Ht Hp Hg Hfit Hb Hright Hsmall Hne Hmin.
    unfold compute_phasediff_deciles. destruct (map_res_total (overlap_pair min_points files t) (get_overlaps t)) as (gs & ->); [|cbn [bind]; eauto].
    intros [i j] I. apply pair_total. destruct (C26_overlaps t) as (O1 & _). now apply O1.
  Qed.

  Lemma bulk_total f solve lsq method arr : compute_phasediff_deciles comps min_points files t = Ok f -> of_overlaps f <> [] ->
    method = "integer"%string /\ mip_complete solve /\ components_ok comps \/ method = "L2"%string ->
    exists O R, get_bulk_offsets solve lsq method f t arr = Ok (O, R).
  Proof using Hl Hn Ht Hp Hg Hfit Hb Hright Hsmall.
    intros Hc No Hm. destruct (computed comps min_points files t f Hc Hl) as (_ & _ & _ & Eo & Ec).
    assert (forall g, In g (of_groups f) -> exists i j, og_pair g = (i, j) /\ (i < j < ntiles t)%nat) as Gp.
    { intros g I. destruct (group_pair comps min_points files t f H W Hc Hl Hn Ht Hp Hg Hfit g I) as (i & j & E & B & _). eauto. }
    assert (forall p, In p (of_overlaps f) -> (fst p < snd p < ntiles t)%nat) as Hr.
    { intros p I. rewrite Eo in I. apply in_map_iff in I as (g & <- & I). destruct (Gp g I) as (i & j & -> & B). exact B. }
    assert (0 < ntiles t)%nat as Pos by (destruct (of_overlaps f) as [|p ps]; [contradiction|]; specialize (Hr p (or_introl eq_refl)); lia).
    unfold get_bulk_offsets.
    destruct (map_res_total (fun p => match find (fun g => (fst (og_pair g) =? fst p)%nat && (snd (og_pair g) =? snd p)%nat) (of_groups f) with
       | Some g => Ok g | None => Err KeyError end) (of_overlaps f)) as (gs & Egs).
    { intros p I. rewrite Eo in I. apply in_map_iff in I as (g & <- & I). destruct (find _ _) as [g'|] eqn:Ef; [eauto|].
      pose proof (find_none _ _ Ef g I) as X. cbv beta in X. rewrite !Nat.eqb_refl in X. discriminate. }
    rewrite Egs. cbn [bind]. apply map_res_nth in Egs as [Lg Kg].
    assert (forall q, (q < length (of_overlaps f))%nat -> exists g, nth q gs (OGroup (O, O) [] [] []) = g /\ In g (of_groups f) /\ og_pair g = nth q (of_overlaps f) (O, O)) as Gq.
    { intros q Bq. specialize (Kg q (O, O) (OGroup (O, O) [] [] []) Bq). destruct (find _ _) as [g|] eqn:Ef; [|discriminate]. injection Kg as <-.
      apply find_some in Ef as [I E]. exists g. split; [reflexivity|]. split; [exact I|]. destruct (og_pair g), (nth q (of_overlaps f) (O, O)). cbn [fst snd] in E. f_equal; lia. }
    assert (length gs <> O) as Lgs by (rewrite Lg; destruct (of_overlaps f); [contradiction|discriminate]).
    destruct gs as [|g0 gs']; [contradiction|]. remember (g0 :: gs') as gs eqn:Eg0.
    destruct (map (fun g => map (fun row => nth 5 row 0) (og_stats g)) gs) as [|first rest] eqn:Eoff; [subst gs; discriminate|]. rewrite <- Eoff.
    assert (length first = bands) as Lf.
    { rewrite Eg0 in Eoff. cbn [map] in Eoff. injection Eoff as <- _. rewrite map_length.
      destruct (Gq O) as (g & Eg & Ig & Eqp); [rewrite <- Lg; lia|]. rewrite Eg0 in Eg. cbn in Eg. subst g.
      destruct (og_pair g0) as [i j] eqn:Ep. apply (group_bands comps min_points files t f H W Hc Hl Hn Ht Hp Hg Hfit bands Hb g0 i j Ig Ep). }
    rewrite Lf.
    assert (forall b q, (b < bands)%nat -> (q < length (of_overlaps f))%nat ->
      exists i j, (i < ntiles t)%nat /\ (j < ntiles t)%nat /\ nth q (map (fun x => nth b x 0) (map (fun g => map (fun row => nth 5 row 0) (og_stats g)) gs)) 0 = M b j - M b i) as Md.
    { intros b q Bb Bq. destruct (Gq q Bq) as (g & Eg & Ig & _). destruct (Gp g Ig) as (i & j & Ep & Bij). exists i, j. split; [lia|]. split; [lia|].
      rewrite map_map. rewrite (map_nth' _ _ _ (OGroup (O, O) [] [] [])) by lia. rewrite Eg.
      pose proof (group_bands comps min_points files t f H W Hc Hl Hn Ht Hp Hg Hfit bands Hb g i j Ig Ep) as Ls.
      rewrite (map_nth' _ _ _ []) by lia.
      apply (recorded_median comps min_points files t f H W Hc Hl Hn Ht Hp Hg Hfit bands Hb D M Hright b g i j Bb Ig Ep). }
    set (offs := map (fun g => map (fun row => nth 5 row 0) (og_stats g)) gs) in *.
    assert (of_conn_comp f = comps (ntiles t) (of_overlaps f)) as Ecc.
    { clear -Hc. unfold compute_phasediff_deciles in Hc. destruct (map_res _ _); [|discriminate]. cbn [bind] in Hc. now injection Hc as <-. }
    destruct Hm as [(-> & Hcm & _ & Hco)| ->].
    - cbn [String.eqb Ascii.eqb Bool.eqb].
      destruct (map_res_total (fun ii => solve_int_offsets solve (of_overlaps f) (of_conn_comp f) (map (fun x => nth ii x 0) offs) (map (count_valid arr) (tiles t))) (seq 0 bands)) as (sols & ->); [|cbn [bind]; eauto].
      intros b I. apply in_seq in I. destruct (Hco (ntiles t) (of_overlaps f) Pos) as [Hco1 Hco2]; [intros p J; apply Hr in J; lia|].
      destruct (C35_total solve (of_overlaps f) (of_conn_comp f) (map (fun x => nth b x 0) offs) (map (count_valid arr) (tiles t)) Hcm) as (n & v & E).
      + split; [intros X; rewrite X in Ec; cbn in Ec; lia|]. rewrite Ecc. split; [exact Hco1|]. intros p J. rewrite Hl. apply Hr in J. lia.
      + intros q Bq. destruct (Md b q ltac:(lia) Bq) as (i & j & Bi & Bj & ->). specialize (Hsmall b j i ltac:(lia) Bj Bi). lia.
      + eauto.
    - cbn [String.eqb Ascii.eqb Bool.eqb]. unfold solve_l2_min.
      destruct (existsb (fun p => (ntiles t <=? fst p)%nat || (ntiles t <=? snd p)%nat) (of_overlaps f)) eqn:Ex.
      { apply existsb_exists in Ex as (p & I & E). apply Hr in I. lia. }
      destruct (of_overlaps f) as [|p0 ps] eqn:Eol; [contradiction|]. rewrite <- Eol in *.
      destruct (map_res_total (l2_min lsq (map (diff_row (ntiles t)) (of_overlaps f))) (map (fun ii => map inject_Z (map (fun x => nth ii x 0) offs)) (seq 0 bands))) as (rs & ->).
      { intros b I. apply in_map_iff in I as (ii & <- & _). unfold l2_min. unfold offs. rewrite !map_length, Lg, Nat.eqb_refl. cbn [negb]. eauto. }
      cbn [bind]. destruct (argmax (map (count_valid arr) (tiles t))) as [c|e] eqn:Ea; [cbn [bind]; eauto|].
      exfalso. unfold argmax in Ea. destruct (map _ (tiles t)) eqn:Et; [|discriminate]. unfold ntiles in Pos. destruct (tiles t); [cbn in Pos; lia|discriminate].
  Qed.
End Overlaps.
