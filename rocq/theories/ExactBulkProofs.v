(** Bulk offsets of tiles that are all right up to whole cycles. *)
From Verif Require Import Base BaseLemmas PoolProofs GraphModel GraphSpec TileModel TileSpec TileProofs OverlapModel OverlapSpec BulkModel BulkSpec BulkProofs
  MergeModel MergeSpec AdjustProofs DescribeProofs Props_Tile Props_Overlap Props_Bulk Props_Merge PipelineSpec ExactSpec ExactMergeProofs.
From Coq Require Import String.
From Coq Require Import List ZifyBool Lqa Permutation.
Import ListNotations.
Set Default Goal Selector "!".
Local Open Scope Z_scope.
Opaque twopi.

(** A tolerance below one cycle determines the integer. *)
Lemma tol_exact (d : Q) (n k : Z) : (d == twopi * inject_Z n)%Q -> cycles_within_tol d k -> k = n.
Proof.
  intros E [B T]. rewrite E in T. pose proof twopi_pos as P.
  assert (twopi * inject_Z n - twopi * inject_Z k == twopi * inject_Z (n - k))%Q as E1 by (rewrite inject_Z_sub; ring). rewrite E1 in T.
  rewrite Qabs_Qmult, (Qabs_pos twopi) in T by lra.
  apply Qmult_le_l in T; [|auto].
  assert (inject_Z (Z.abs k) <= 32768)%Q as A by (change 32768%Q with (inject_Z 32768); rewrite <- Zle_Qle; lia).
  assert (Qabs (inject_Z (n - k)) < 1)%Q as C by lra.
  apply Qabs_Qlt_condition in C as [C1 C2].
  assert (inject_Z (-1) < inject_Z (n - k))%Q as C1' by (change (inject_Z (-1)) with (-1)%Q; lra).
  assert (inject_Z (n - k) < inject_Z 1)%Q as C2' by (change (inject_Z 1) with 1%Q; lra).
  rewrite <- Zlt_Qlt in C1', C2'. lia.
Qed.

Lemma whole_towards (n s : Z) q : (q == inject_Z n)%Q -> towards_zero q s -> s = n.
Proof.
  intros E [P N]. destruct (Qlt_le_dec q 0) as [L|L].
  - destruct (N L) as [A B]. rewrite E in A, B. assert (inject_Z (s - 1) < inject_Z n)%Q as A' by (rewrite inject_Z_sub; exact A).
    rewrite <- Zlt_Qlt in A'. rewrite <- Zle_Qle in B. lia.
  - destruct (P L) as [A B]. rewrite E in A, B. assert (inject_Z n < inject_Z (s + 1))%Q as B' by (rewrite inject_Z_plus; exact B).
    rewrite <- Zlt_Qlt in B'. rewrite <- Zle_Qle in A. lia.
Qed.

Section BulkMed.
  Variables (comps : nat -> list (nat * nat) -> list nat) (min_points : Z) (files : list tile_file) (t : tileset)
            (f : overlap_file) (H W : Z).
  Notation F n := (nth n files dfile).
  Hypothesis Hc : compute_phasediff_deciles comps min_points files t = Ok f.
  Hypothesis Hl : forall n e, length (comps n e) = n.
  Hypothesis Hn : length files = ntiles t.
  Hypothesis Ht : forall n, (n < ntiles t)%nat -> tf_tile (F n) = tile_at t n.
  Hypothesis Hp : forall fl, In fl files -> NoDup (tf_points fl).
  Hypothesis Hg : forall fl, In fl files -> in_grid H W (file_coords fl).
  Hypothesis Hfit : H * W <= 2 ^ 32.
  Variables (bands : nat).
  Hypothesis Hb : forall fl, In fl files -> tile_bands bands fl.
  Lemma group_pair g : In g (of_groups f) -> exists i j, og_pair g = (i, j) /\ (i < j < ntiles t)%nat /\
    overlap_pair min_points files t (i, j) = Ok (Some g).
  Proof using Hc Hl Hn Ht Hp Hg Hfit.
    intros I. destruct (computed comps min_points files t f Hc Hl) as (gs & Eg & Ef & Eo & Ec). destruct (C26_overlaps t) as (O1 & _).
    pose proof (map_res_nth _ _ _ Eg) as [Lg Kg].
    rewrite Ef in I. apply in_flat_map in I as (o & Io & Ig). destruct o as [g'|]; [|destruct Ig]. destruct Ig as [->|[]].
    apply (In_nth _ _ None) in Io as (n & Bn & En). rewrite Lg in Bn. specialize (Kg n (O, O) None Bn). rewrite En in Kg.
    destruct (nth n (get_overlaps t) (O, O)) as [i j] eqn:Ep. exists i, j.
    assert (In (i, j) (get_overlaps t)) as Ip by (rewrite <- Ep; now apply nth_In).
    split; [|split; [now apply O1|exact Kg]].
    exact (proj1 (pair_recorded min_points files t H W Hn Ht Hp Hg Hfit i j g (O1 i j Ip) Kg)).
  Qed.

  Lemma group_bands g i j : In g (of_groups f) -> og_pair g = (i, j) -> length (og_stats g) = bands.
  Proof using Hc Hl Hn Ht Hp Hg Hfit Hb.
    intros I E. destruct (group_pair g I) as (i' & j' & E' & B & Ok_). rewrite E in E'. injection E' as <- <-.
    assert (In (F i) files /\ In (F j) files) as [Ii Ij] by (split; apply nth_In; lia).
    pose proof (C34_recorded_stats min_points files t i j g bands) as K. cbv beta zeta in K. fold dfile in K.
    now destruct (K (Hb _ Ii) (Hb _ Ij) Ok_) as (Ls & _).
  Qed.

  Variables (M : nat -> nat -> Z).
  (** The recorded medians are those of some offsets [M]. *)
  Hypothesis Hmed : forall k g i j, (k < bands)%nat -> In g (of_groups f) -> og_pair g = (i, j) ->
    nth 5 (nth k (og_stats g) []) 0 = M k j - M k i.

  Lemma median_right k p m : (k < bands)%nat -> median_of f k p m -> m = M k (snd p) - M k (fst p).
  Proof using Hc Hl Hn Ht Hp Hg Hfit Hb Hmed.
    intros Hk (g & I & E & ->). destruct p as [i j]. now apply Hmed.
  Qed.

  Lemma bulk_bands solve lsq method arr O R : get_bulk_offsets solve lsq method f t arr = Ok (O, R) -> length O = bands.
  Proof using Hc Hl Hn Ht Hp Hg Hfit Hb.
    unfold get_bulk_offsets. destruct (map_res _ (of_overlaps f)) as [groups|] eqn:EG; [|discriminate]. cbn [bind].
    destruct groups as [|g0 gr] eqn:Egr; [discriminate|]. cbn [map].
    assert (length (map (fun row => nth 5 row 0) (og_stats g0)) = bands) as Lb.
    { rewrite map_length. assert (In g0 (of_groups f)) as I0.
      { destruct (of_overlaps f) as [|p ps]; [discriminate|]. cbn [map_res] in EG. destruct (find _ _) as [g|] eqn:Ef; [|discriminate]. cbn [bind] in EG.
        destruct (map_res _ ps); [|discriminate]. cbn [bind] in EG. injection EG as -> _. apply find_some in Ef. apply Ef. }
      destruct (og_pair g0) as [i j] eqn:Ep. apply (group_bands g0 i j I0 Ep). }
    rewrite Lb. destruct (String.eqb method "integer"%string).
    - destruct (map_res _ (seq 0 bands)) as [sols|] eqn:ES; [|discriminate]. cbn [bind]. intros E. injection E as <- <-. rewrite map_length.
      apply map_res_nth in ES as [LS _]. now rewrite seq_length in LS.
    - destruct (String.eqb method "L2"%string); [|discriminate]. unfold solve_l2_min. destruct (existsb _ _); [discriminate|]. destruct (of_overlaps f); [discriminate|].
      destruct (map_res (l2_min _ _) _) as [rs|] eqn:ES; [|discriminate]. cbn [bind]. destruct (argmax _); [|discriminate]. cbn [bind]. intros E. injection E as <- <-. rewrite map_length.
      apply map_res_nth in ES as [LS _]. now rewrite map_length, seq_length in LS.
  Qed.

  Lemma reach_same olaps (o : nat -> Q) u v : (forall i j, In (i, j) olaps -> (o i == o j)%Q) -> reach olaps u v -> (o u == o v)%Q.
  Proof using. intros K R. induction R as [|v v' R IH [I|I]]; [reflexivity| |]; rewrite IH; [apply K, I|symmetry; apply K, I]. Qed.

  Lemma most_points_ex counts : counts <> [] -> exists r, most_points counts r.
  Proof using Hn files t.
    induction counts as [|c cs IH] using rev_ind; [congruence|]. intros _. destruct cs as [|c0 cs'].
    - exists O. cbn. split; [cbn; lia|]. intros v Hv. cbn in Hv. assert (v = O) as -> by lia. lia.
    - destruct IH as (r & B & K); [discriminate|]. remember (c0 :: cs') as cs eqn:Ecs. clear Ecs.
      destruct (Z.le_gt_cases c (nth r cs 0)) as [C|C].
      + exists r. split; [rewrite app_length; lia|]. intros v Hv. rewrite app_length in Hv. cbn in Hv. rewrite (app_nth1 cs _ _ B).
        destruct (Nat.lt_ge_cases v (length cs)) as [V|V]; [rewrite (app_nth1 cs _ _ V); apply K, V|].
        assert (v = length cs) as -> by lia. rewrite nth_middle. split; lia.
      + exists (length cs). split; [rewrite app_length; cbn; lia|]. intros v Hv. rewrite app_length in Hv. cbn in Hv. rewrite nth_middle.
        destruct (Nat.lt_ge_cases v (length cs)) as [V|V]; [rewrite (app_nth1 cs _ _ V); destruct (K v V); lia|].
        assert (v = length cs) as -> by lia. rewrite nth_middle. split; lia.
  Qed.

  Lemma bulk_med solve lsq method arr O R k : (k < bands)%nat ->
    get_bulk_offsets solve lsq method f t arr = Ok (O, R) ->
    bulk_solver_ok comps solve lsq method (forall u v, (u < ntiles t)%nat -> (v < ntiles t)%nat -> reach (of_overlaps f) u v) ->
    (forall i j, (i < ntiles t)%nat -> (j < ntiles t)%nat -> Z.abs (M k i - M k j) <= 2 ^ 31 - 1) ->
    let o j := nth j (nth k O []) 0%Q in
    (forall i j, In (i, j) (of_overlaps f) -> (o j - o i == inject_Z (M k j) - inject_Z (M k i))%Q) /\
    (exists c : nat -> Z, forall j, (j < ntiles t)%nat -> (inject_Z (M k j) - o j == inject_Z (c j))%Q) /\
    length O = bands /\ length (nth k O []) = ntiles t.
  Proof using Hc Hl Hn Ht Hp Hg Hfit Hb Hmed.
    intros Hk E [Hint Hl2] Hbd o. pose proof (bulk_bands _ _ _ _ _ _ E) as LO.
    destruct (computed comps min_points files t f Hc Hl) as (_ & _ & _ & Eo & Ec).
    assert (forall p, In p (of_overlaps f) -> (fst p < snd p < ntiles t)%nat) as Hr.
    { intros p I. rewrite Eo in I. apply in_map_iff in I as (g & <- & I). destruct (group_pair g I) as (i & j & -> & B & _). exact B. }
    assert (of_conn_comp f = comps (ntiles t) (of_overlaps f)) as Ecc.
    { clear -Hc. unfold compute_phasediff_deciles in Hc. destruct (map_res _ _); [|discriminate]. cbn [bind] in Hc. now injection Hc as <-. }
    destruct (string_dec method "integer"%string) as [->|Ni].
    - assert (forall i, (i < ntiles t)%nat -> nth i (map (M k) (seq 0 (ntiles t))) 0 = M k i) as Mn.
      { intros i B. rewrite (map_nth' _ _ _ 0%nat) by (now rewrite seq_length). now rewrite seq_nth. }
      destruct (Hint eq_refl) as [Hms [_ Hco]]. apply bulk_int in E as [_ E]. destruct (E k) as (n & v & off & E1 & _ & Lo & Hm & Hsol); [lia|]. clear E.
      assert (of_conn_comp f <> []) as Nz.
      { intros X. unfold solve_int_offsets in Hsol. rewrite X in Hsol. clear -Hsol. destruct (existsb _ _) in Hsol; [discriminate|]. cbn in Hsol. discriminate. }
      assert (0 < ntiles t)%nat as Pos by (destruct (of_conn_comp f); [contradiction|cbn in Ec; lia]).
      destruct (Hco (ntiles t) (of_overlaps f) Pos) as [Hco1 Hco2]; [intros p I; apply Hr in I; lia|].
      assert (layout (of_overlaps f) (of_conn_comp f)) as Hlay.
      { split; [exact Nz|]. rewrite Ecc. split; [exact Hco1|]. intros p I. rewrite Hl. apply Hr in I. lia. }
      rewrite <- Ecc in Hco2.
      destruct (C35_consistent solve (of_overlaps f) (of_conn_comp f) off (map (count_valid arr) (tiles t)) n v (map (M k) (seq 0 (ntiles t))) Hms Hlay Hco2 Hsol) as (_ & Ex & _).
      { rewrite map_length, seq_length. auto. }
      { intros q Bq. unfold misfit. rewrite <- Lo in Bq. specialize (Hm q Bq). apply median_right in Hm; [|auto]. rewrite Lo in Bq. pose proof (Hr _ (nth_In _ (0, 0)%nat Bq)) as Rq.
        cbv zeta. rewrite !Mn by lia. lia. }
      { rewrite Ec. intros u w Bu Bw. rewrite !Mn by lia. auto. }
      assert (forall j, o j = inject_Z (nth j n 0)) as On by (intros j; unfold o; rewrite E1; apply (map_nth inject_Z)).
      split.
      + intros i j I. apply (In_nth _ _ (0, 0)%nat) in I as (q & Bq & Eq). specialize (Ex q Bq). rewrite <- Lo in Bq. specialize (Hm q Bq). apply median_right in Hm; [|auto].
        unfold misfit in Ex. rewrite Eq in *. cbn [fst snd] in *. rewrite !On, <- !inject_Z_sub. apply inject_Z_injective. lia.
      + split; [exists (fun j => M k j - nth j n 0); intros j _; rewrite On; now rewrite inject_Z_sub|]. split; [exact LO|].
        rewrite E1, map_length. destruct (C35_offsets _ _ _ _ _ _ _ Hms Hsol) as [-> _]. exact Ec.
    - destruct (string_dec method "L2"%string) as [->|N2]; [|exfalso; unfold get_bulk_offsets in E; destruct (map_res _ _) as [gs|]; [|discriminate]; cbn [bind] in E;
        destruct (map _ gs); [discriminate|]; apply String.eqb_neq in Ni, N2; rewrite Ni, N2 in E; discriminate].
      destruct (Hl2 eq_refl) as [Hls Hlk].
      assert (length (map (count_valid arr) (tiles t)) = ntiles t) as Lct by (now rewrite map_length).
      assert (of_overlaps f <> []) as Nov.
      { intros X. unfold get_bulk_offsets in E. rewrite X in E. discriminate. }
      assert (0 < ntiles t)%nat as Pos.
      { destruct (of_overlaps f) as [|p ps] eqn:Ep; [contradiction|]. specialize (Hr p (or_introl eq_refl)). lia. }
      apply bulk_l2 in E as (offs & Hoffs & Esol).
      assert (length offs = bands) as Loffs.
      { clear -Esol LO. unfold solve_l2_min in Esol. destruct (existsb _ _); [discriminate|]. destruct (of_overlaps f); [discriminate|].
        destruct (map_res (l2_min _ _) _) as [rs|] eqn:ES; [|discriminate]. cbn [bind] in Esol. destruct (argmax _); [|discriminate]. cbn [bind] in Esol. injection Esol as <- <-. rewrite map_length in LO.
        apply map_res_nth in ES as [LS _]. lia. }
      set (x0 := fun b => map (fun j => inject_Z (M b j)) (seq 0 (ntiles t))).
      assert (forall b i, (i < ntiles t)%nat -> nth i (x0 b) 0%Q = inject_Z (M b i)) as Xn.
      { intros b i B. unfold x0. rewrite (map_nth' _ _ _ 0%nat) by (now rewrite seq_length). now rewrite seq_nth. }
      assert (forall b, length (x0 b) = ntiles t) as Lx by (intros b; unfold x0; now rewrite map_length, seq_length).
      assert (forall b, (b < bands)%nat -> explainsQ (of_overlaps f) (nth b offs []) (x0 b)) as Ex0.
      { intros b Bb q Bq. cbv zeta. pose proof (Hr _ (nth_In _ (0, 0)%nat Bq)) as Rq. rewrite !Xn by lia.
        destruct (Hoffs b) as [_ Hq]; [lia|]. destruct (Hq q Bq) as (m & Mm & ->). apply median_right in Mm; [|auto]. rewrite Mm. now rewrite inject_Z_sub. }
      destruct (C36_offsets lsq (of_overlaps f) offs (ntiles t) (map (count_valid arr) (tiles t)) O R) as (_ & _ & K); auto.
      { intros p I. apply Hr in I. lia. }
      { intros b I. apply (In_nth _ _ []) in I as (q & Bq & <-). apply (Hls _ _ _ (x0 q)); auto; [intros p I; apply Hr in I; lia|apply (Hoffs q Bq)|apply Ex0; lia]. }
      destruct (K k) as (Lo & Hz & _ & _ & Hex); [lia|]. destruct (Hex (x0 k) (Lx k) (Ex0 k Hk)) as (Ex & _ & _).
      assert (forall i j, In (i, j) (of_overlaps f) -> (o j - o i == inject_Z (M k j) - inject_Z (M k i))%Q) as Hd.
      { intros i j I. apply (In_nth _ _ (0, 0)%nat) in I as (q & Bq & Eq). specialize (Ex q Bq). cbv zeta in Ex. pose proof (Ex0 k Hk q Bq) as Ey. cbv zeta in Ey.
        pose proof (Hr _ (nth_In _ (0, 0)%nat Bq)) as Rq. rewrite Eq in *. cbn [fst snd] in *. rewrite !Xn in Ey by lia. unfold o. rewrite Ex, Ey. reflexivity. }
      split; [exact Hd|]. destruct (most_points_ex (map (count_valid arr) (tiles t))) as (r & Mr).
      { intros X. rewrite X in Lct. cbn in Lct. lia. }
      split; [|split; [exact LO|exact Lo]]. exists (fun _ => M k r). intros j Bj. assert (r < ntiles t)%nat as Br by (rewrite <- Lct; apply Mr).
      pose proof (reach_same (of_overlaps f) (fun j => inject_Z (M k j) - o j)%Q j r) as Rs. cbv beta in Rs. rewrite Rs; [|intros i i' I; specialize (Hd i i' I); lra|apply Hlk; auto].
      pose proof (Hz r Mr) as Z0. unfold o. rewrite Z0. ring.
  Qed.
End BulkMed.

Section Bulk.
  Variables (comps : nat -> list (nat * nat) -> list nat) (min_points : Z) (files : list tile_file) (t : tileset)
            (f : overlap_file) (H W : Z).
  Notation F n := (nth n files dfile).
  Hypothesis Hc : compute_phasediff_deciles comps min_points files t = Ok f.
  Hypothesis Hl : forall n e, length (comps n e) = n.
  Hypothesis Hn : length files = ntiles t.
  Hypothesis Ht : forall n, (n < ntiles t)%nat -> tf_tile (F n) = tile_at t n.
  Hypothesis Hp : forall fl, In fl files -> NoDup (tf_points fl).
  Hypothesis Hg : forall fl, In fl files -> in_grid H W (file_coords fl).
  Hypothesis Hfit : H * W <= 2 ^ 32.
  Variables (bands : nat).
  Hypothesis Hb : forall fl, In fl files -> tile_bands bands fl.
  Variables (D : nat -> Z * Z -> Q) (M : nat -> nat -> Z).
  Hypothesis Hright : forall k j p x, (k < bands)%nat -> found files x j p ->
    (MergeSpec.phase_of (F j) k p == D k x + twopi * inject_Z (M k j))%Q.

  Lemma recorded_median k g i j : (k < bands)%nat -> In g (of_groups f) -> og_pair g = (i, j) ->
    nth 5 (nth k (og_stats g) []) 0 = M k j - M k i.
  Proof using Hc Hl Hn Ht Hp Hg Hfit Hb Hright.
    intros Hk I E. destruct (group_pair comps min_points files t f H W Hc Hl Hn Ht Hp Hg Hfit g I) as (i' & j' & E' & B & Ok_). rewrite E in E'. injection E' as <- <-.
    destruct (pair_recorded min_points files t H W Hn Ht Hp Hg Hfit i j g B Ok_) as (_ & Lc & _ & _ & Cm).
    assert (In (F i) files /\ In (F j) files) as [Ii Ij] by (split; apply nth_In; lia).
    pose proof (C34_recorded_stats min_points files t i j g bands) as K. cbv beta zeta in K. fold dfile in K.
    destruct (K (Hb _ Ii) (Hb _ Ij) Ok_) as (_ & kk & Dd & K1 & K2).
    destruct (K2 k Hk) as ((_ & _ & _ & _ & _ & _ & Same) & _ & Tz).
    apply (whole_towards (M k j - M k i) _ (nth 5 (Dd k) 0%Q)); [|apply Tz; lia].
    apply Same; [lia|]. intros m Bm. apply (tol_exact _ _ _) with (2 := K1 k m Hk Bm).
    assert (In (nth m (og_c1 g) O, nth m (og_c2 g) O) (combine (og_c1 g) (og_c2 g))) as Im.
    { rewrite <- combine_nth by auto. apply nth_In. rewrite combine_length. lia. }
    apply Cm in Im as (x & X1 & X2).
    pose proof (Hright k i (nth m (og_c1 g) O) x Hk) as R1. pose proof (Hright k j (nth m (og_c2 g) O) x Hk) as R2.
    unfold found in R1, R2. change OverlapSpec.phase_of with MergeSpec.phase_of. rewrite R1, R2.
    - rewrite inject_Z_sub. ring.
    - exists (F j). split; [apply nth_error_nth'; lia|exact X2].
    - exists (F i). split; [apply nth_error_nth'; lia|exact X1].
  Qed.

  Lemma bulk_right solve lsq method arr O R k : (k < bands)%nat ->
    get_bulk_offsets solve lsq method f t arr = Ok (O, R) ->
    bulk_solver_ok comps solve lsq method (forall u v, (u < ntiles t)%nat -> (v < ntiles t)%nat -> reach (of_overlaps f) u v) ->
    (forall i j, (i < ntiles t)%nat -> (j < ntiles t)%nat -> Z.abs (M k i - M k j) <= 2 ^ 31 - 1) ->
    let o j := nth j (nth k O []) 0%Q in
    (forall i j, In (i, j) (of_overlaps f) -> (o j - o i == inject_Z (M k j) - inject_Z (M k i))%Q) /\
    (exists c : nat -> Z, forall j, (j < ntiles t)%nat -> (inject_Z (M k j) - o j == inject_Z (c j))%Q) /\
    length O = bands /\ length (nth k O []) = ntiles t.
  Proof using Hc Hl Hn Ht Hp Hg Hfit Hb Hright.
    apply (bulk_med comps min_points files t f H W Hc Hl Hn Ht Hp Hg Hfit bands Hb M). exact recorded_median.
  Qed.
End Bulk.
