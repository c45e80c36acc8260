(** Negating all phases turns the overlap statistics round. *)
From Verif Require Import Base BaseLemmas PoolProofs GraphModel TileModel TileSpec TileProofs OverlapModel OverlapSpec OverlapProofs BulkModel BulkProofs
  DirichletModel DirichletSpec MergeModel MergeSpec AdjustProofs MergeBatchProofs DescribeProofs ResidueProofs PhaseProofs
  Props_Overlap Props_Merge ShiftSpec ShiftProofs PerturbSpec FieldProofs ConjSpec ConjProofs ConjMergeProofs.
From Verif Require Props_Tile.
From Coq Require Import List ZifyBool Lqa Permutation Sorting.Sorted.
Import ListNotations.
Set Default Goal Selector "!".
Local Open Scope Q_scope.
Local Notation negs := (fun x y : Q => y == - x).

(** ** Sorting *)
Lemma sorted_perm_eq l : forall l', StronglySorted Z.le l -> StronglySorted Z.le l' -> Permutation l l' -> l = l'.
Proof.
  induction l as [|a l IH]; intros l' S S' P; [now apply Permutation_nil in P|].
  destruct l' as [|b l']; [symmetry in P; now apply Permutation_nil in P|].
  inversion S as [|? ? S1 F1]; subst. inversion S' as [|? ? S2 F2]; subst. rewrite Forall_forall in F1, F2.
  assert (a = b) as ->.
  { assert (In a (b :: l')) as [E|Ia] by (apply (Permutation_in _ P); now left); [auto|].
    assert (In b (a :: l)) as [E|Ib] by (apply (Permutation_in _ (Permutation_sym P)); now left); [auto|].
    specialize (F1 _ Ib). specialize (F2 _ Ia). lia. }
  f_equal. apply IH; auto. now apply Permutation_cons_inv in P.
Qed.
Lemma sorted_snoc l x : StronglySorted Z.le l -> (forall y, In y l -> (y <= x)%Z) -> StronglySorted Z.le (l ++ [x]).
Proof.
  induction 1 as [|a l S IH F]; intros H; [repeat constructor|]. cbn [app]. constructor; [apply IH; auto with datatypes|].
  rewrite Forall_forall in *. intros y I. apply in_app_or in I as [I|[<-|[]]]; [auto|]. apply H. now left.
Qed.
Lemma sorted_opp l : StronglySorted Z.le l -> StronglySorted Z.le (rev (map Z.opp l)).
Proof.
  induction 1 as [|a l S IH F]; [constructor|]. cbn [map rev]. apply sorted_snoc; [exact IH|].
  intros y I. apply in_rev, in_map_iff in I as (z & <- & I). rewrite Forall_forall in F. specialize (F z I). lia.
Qed.
Lemma sortZ_opp l : sortZ (map Z.opp l) = rev (map Z.opp (sortZ l)).
Proof.
  apply sorted_perm_eq; [apply OverlapProofs.sortZ_sorted|apply sorted_opp, OverlapProofs.sortZ_sorted|].
  transitivity (map Z.opp l); [apply OverlapProofs.sortZ_perm|]. transitivity (map Z.opp (sortZ l)); [|apply Permutation_rev].
  apply Permutation_map, Permutation_sym, OverlapProofs.sortZ_perm.
Qed.

(** ** Deciles *)
Lemma decile_opp l i : (i <= 10)%nat -> l <> [] -> decile (map Z.opp l) i == - decile l (10 - i).
Proof.
  intros Hi Hl. unfold decile. cbv zeta. rewrite sortZ_opp, map_length.
  set (s := sortZ l). set (N := (length l - 1)%nat).
  assert (length s = S N) as Ls by (unfold s, N; rewrite TileProofs.sortZ_length; destruct l; [contradiction|cbn; lia]).
  set (a := Nat.div (N * i) 10). set (b := Nat.div (N * (10 - i)) 10).
  pose proof (Nat.div_mod (N * i) 10 ltac:(lia)) as D. pose proof (Nat.mod_upper_bound (N * i) 10 ltac:(lia)) as M. fold a in D.
  pose proof (Nat.div_mod (N * (10 - i)) 10 ltac:(lia)) as D'. pose proof (Nat.mod_upper_bound (N * (10 - i)) 10 ltac:(lia)) as M'. fold b in D'.
  assert (N * i + N * (10 - i) = 10 * N)%nat as T by nia.
  set (r := Nat.modulo (N * i) 10) in *. set (r' := Nat.modulo (N * (10 - i)) 10) in *. clearbody a b r r'.
  assert (forall k, (k <= N)%nat -> nth k (rev (map Z.opp s)) 0%Z = (- nth (N - k) s 0)%Z) as V.
  { intros k Bk. rewrite rev_nth by (rewrite map_length; lia). rewrite map_length, Ls. replace (S N - S k)%nat with (N - k)%nat by lia. apply nth_opp. }
  rewrite !tenths. set (x := (N * i)%nat) in *. set (y := (N * (10 - i))%nat) in *. clearbody x y.
  assert ((r = 0 /\ r' = 0 /\ a + b = N) \/ (r + r' = 10 /\ a + b + 1 = N))%nat as [(R & R' & E)|(R & E)] by lia.
  - replace (Z.of_nat x - 10 * Z.of_nat a)%Z with 0%Z by lia. replace (Z.of_nat y - 10 * Z.of_nat b)%Z with 0%Z by lia.
    rewrite !V by lia. replace (N - a)%nat with b by lia. rewrite inject_Z_opp. change (0 # 10) with (0 * (1 # 10)). ring.
  - rewrite !V by lia. replace (Nat.min (S a) N) with (S a) by lia. replace (Nat.min (S b) N) with (S b) by lia.
    replace (N - a)%nat with (S b) by lia. replace (N - S a)%nat with b by lia. rewrite !inject_Z_opp.
    assert ((Z.of_nat x - 10 * Z.of_nat a # 10) == 1 - (Z.of_nat y - 10 * Z.of_nat b # 10)) as ->.
    { unfold Qeq, Qminus, Qplus, Qopp. cbn [Qnum Qden]. lia. }
    ring.
Qed.
Lemma qtrunc0_opp x y : y == - x -> qtrunc0 y = (- qtrunc0 x)%Z.
Proof.
  intros E. unfold qtrunc0. destruct (Qle_bool 0 x) eqn:A, (Qle_bool 0 y) eqn:B.
  - apply Qle_bool_iff in A, B. assert (x == 0) as X by lra. assert (y == 0) as Y by lra. now rewrite X, Y.
  - unfold Qceiling. f_equal. apply Qfloor_comp. rewrite E. ring.
  - unfold Qceiling. rewrite Z.opp_involutive. apply Qfloor_comp. exact E.
  - assert (~ 0 <= x) as A' by (rewrite <- Qle_bool_iff, A; discriminate). assert (~ 0 <= y) as B' by (rewrite <- Qle_bool_iff, B; discriminate).
    exfalso. apply Qnot_le_lt in A', B'. lra.
Qed.
Lemma seq_turn : rev (map (fun i => (10 - i)%nat) (seq 0 11)) = seq 0 11.
Proof. reflexivity. Qed.
Lemma stats_opp l : l <> [] -> map qtrunc0 (map (decile (map Z.opp l)) (seq 0 11)) = rev (map Z.opp (map qtrunc0 (map (decile l) (seq 0 11)))).
Proof.
  intros Hl. rewrite !map_map, <- map_rev.
  rewrite <- seq_turn at 2. rewrite rev_involutive, map_map. apply map_ext_in. intros i I. apply in_seq in I.
  apply qtrunc0_opp, decile_opp; [lia|exact Hl].
Qed.

(** ** The nearest integer in 16 bits *)
Lemma wrap16_range z : (- 2 ^ 15 <= wrap_int 16 z < 2 ^ 15)%Z.
Proof. unfold wrap_int. change (16 - 1)%Z with 15%Z. pose proof (Z.mod_pos_bound (z + 2 ^ 15) (2 ^ 16) ltac:(lia)). lia. Qed.
Lemma wrap16_id z : (- 2 ^ 15 <= z < 2 ^ 15)%Z -> wrap_int 16 z = z.
Proof. intros B. unfold wrap_int. change (16 - 1)%Z with 15%Z. rewrite Z.mod_small; lia. Qed.
Lemma close_abs d n : close_int d n = true <-> - ((1 # 100) + (1 # 100000) * inject_Z (Z.abs n)) <= d - inject_Z n <= (1 # 100) + (1 # 100000) * inject_Z (Z.abs n).
Proof. unfold close_int. rewrite Qle_bool_iff. apply Qabs_Qle_condition. Qed.
Lemma nint_opp d d' : d' == - d -> close_int d (nint16 d) = true -> nint16 d <> (- 2 ^ 15)%Z ->
  nint16 d' = (- nint16 d)%Z /\ close_int d' (nint16 d') = true.
Proof.
  intros E C N. pose proof (wrap16_range (rint d)) as B. fold (nint16 d) in B.
  assert (rint d = nint16 d) as Er.
  { apply close_abs in C. apply rint_unique. set (n := nint16 d) in *. clearbody n.
    assert (inject_Z (Z.abs n) <= 32768) as K by (change 32768 with (inject_Z 32768); rewrite <- Zle_Qle; lia). lra. }
  assert (nint16 d' = (- nint16 d)%Z) as En.
  { unfold nint16 at 1. rewrite (rint_comp _ _ E), rint_opp, Er. apply wrap16_id. lia. }
  split; [exact En|]. rewrite En. apply close_abs in C. apply close_abs. rewrite Z.abs_opp, inject_Z_opp, E. lra.
Qed.

Lemma deciles_neg b1 b2 b1' b2' stats : nd_shape b1' = nd_shape b1 -> nd_shape b2' = nd_shape b2 ->
  Forall2 (Forall2 negs) (cycles_of (nd_rows b1) (nd_rows b2)) (cycles_of (nd_rows b1') (nd_rows b2')) ->
  (forall row, In row (cycles_of (nd_rows b1) (nd_rows b2)) -> row <> []) ->
  pairwise_unwrapped_diff_deciles b1 b2 = Ok stats ->
  (forall row, In row (map (map qtrunc0) stats) -> ~ In (- 2 ^ 15)%Z row) ->
  exists stats', pairwise_unwrapped_diff_deciles b1' b2' = Ok stats' /\
    Forall2 (fun row row' => length row = 11%nat /\ row' = rev (map Z.opp row)) (map (map qtrunc0) stats) (map (map qtrunc0) stats').
Proof.
  intros E1 E2 F Hne. unfold pairwise_unwrapped_diff_deciles. cbv zeta. rewrite E1, E2.
  fold (cycles_of (nd_rows b1) (nd_rows b2)). fold (cycles_of (nd_rows b1') (nd_rows b2')).
  destruct (negb (if list_eq_dec _ _ _ then _ else _)); [discriminate|]. destruct (negb _); [discriminate|]. destruct (Nat.ltb _ _); [discriminate|].
  revert F Hne. generalize (cycles_of (nd_rows b1) (nd_rows b2)), (cycles_of (nd_rows b1') (nd_rows b2')). intros D D' F Hne.
  destruct (forallb _ _) eqn:Cl; [|discriminate]. cbn [negb]. intros E Hst. injection E as <-.
  assert (map (map nint16) D' = map (map Z.opp) (map (map nint16) D) /\
    forallb (fun r => forallb (fun dn => close_int (fst dn) (snd dn)) (combine (fst r) (snd r))) (combine D' (map (map nint16) D')) = true) as [En Cl'].
  { revert Cl Hst Hne. induction F as [|r r' D D' Fr F IH]; [auto|]. cbn [map combine forallb fst snd]. intros Cl Hst Hne.
    apply andb_prop in Cl as [C1 C2]. destruct (IH C2) as [I1 I2]; [intros row I; apply Hst; now right|intros row I; apply Hne; now right|].
    rewrite I1, <- I1, I2.
    assert (map nint16 r <> []) as Nr by (intros X; apply (Hne r); [now left|now destruct r]).
    assert (forall n, In n (map nint16 r) -> n <> (- 2 ^ 15)%Z) as Hr.
    { intros n I ->. apply (Hst _ (or_introl eq_refl)). cbn [seq map]. left.
      assert (minZ (map nint16 r) = (- 2 ^ 15)%Z) as Mn.
      { pose proof (minZ_lb _ _ I). pose proof (minZ_in _ Nr) as J. apply in_map_iff in J as (d & J & _). pose proof (wrap16_range (rint d)). fold (nint16 d) in *. lia. }
      unfold qtrunc0. destruct (Qle_bool 0 (decile (map nint16 r) 0)) eqn:Z0.
      - apply Qle_bool_iff in Z0. rewrite (decile_0 _ Nr), Mn in Z0. unfold Qle in Z0. cbn in Z0. lia.
      - unfold Qceiling. rewrite (Qfloor_comp _ (inject_Z (2 ^ 15))); [now rewrite Qfloor_Z|]. rewrite (decile_0 _ Nr), Mn. reflexivity. }
    assert (map nint16 r' = map Z.opp (map nint16 r) /\ forallb (fun dn => close_int (fst dn) (snd dn)) (combine r' (map nint16 r')) = true) as [K1 K2].
    { clear -C1 Hr Fr. induction Fr as [|x y r r' E F IH]; [auto|]. cbn [map combine forallb fst snd] in *. apply andb_prop in C1 as [C1 C2].
      destruct (IH C2) as [J1 J2]; [intros n I; apply Hr; now right|]. destruct (nint_opp x y E C1) as [Q1 Q2]; [apply Hr; now left|].
      rewrite J2, Q2. split; [|reflexivity]. f_equal; [exact Q1|exact J1]. }
    rewrite K2. split; [|reflexivity]. f_equal. exact K1. }
  rewrite Cl'. cbn [negb]. eexists. split; [reflexivity|]. rewrite En. clear -Hne.
  induction D as [|r D IH]; cbn [map]; constructor; [|apply IH; intros row I; apply Hne; now right].
  split; [reflexivity|]. apply stats_opp. intros X. apply (Hne r); [now left|now destruct r].
Qed.

Section Recorded.
  Variables (comps : nat -> list (nat * nat) -> list nat) (min_points : Z) (files files' : list tile_file) (t : tileset) (H W : Z) (bands : nat).
  Hypothesis Hc : cut_files t H W bands files.
  Hypothesis Hc' : cut_files t H W bands files'.
  Hypothesis Ly : same_layout files files'.
  Hypothesis Mf : opposite_files bands files files'.

  Lemma pair_neg i j o : (i < j < ntiles t)%nat -> overlap_pair min_points files t (i, j) = Ok o ->
    (forall g row, o = Some g -> In row (og_stats g) -> ~ In (- 2 ^ 15)%Z row) ->
    exists o', overlap_pair min_points files' t (i, j) = Ok o' /\
      match o, o' with Some g, Some g' => opposite_group g g' | None, None => True | _, _ => False end.
  Proof using All.
    intros B. destruct Hc as (Hn & Hfit & Ht & Hf). destruct Hc' as (Hn' & _ & Ht' & Hf').
    rewrite !pair_loaded.
    assert (forall k, (k < ntiles t)%nat -> fst (load_uw_tile (nth k files no_file) (nth k (tiles t) (BBox 0 0 0 0))) = file_coords (nth k files no_file)) as P.
    { intros k Bk. unfold load_uw_tile, file_coords. cbn [fst]. now rewrite (Ht k Bk). }
    assert (forall k, (k < ntiles t)%nat -> fst (load_uw_tile (nth k files' no_file) (nth k (tiles t) (BBox 0 0 0 0))) = file_coords (nth k files no_file)) as P'.
    { intros k Bk. rewrite <- (P k Bk). unfold load_uw_tile. cbn [fst]. now rewrite (proj1 (proj2 Ly k)). }
    cbv zeta. rewrite !P, !P' by lia. destruct (find_common_points 32 (file_coords (nth i files no_file)) (file_coords (nth j files no_file))) as [[c1 c2]|] eqn:Ec; [|discriminate].
    cbn [bind]. destruct (_ <? _)%Z; [intros E _; injection E as <-; exists None; auto|].
    assert (forall k, (k < ntiles t)%nat -> In (nth k files no_file) files /\ In (nth k files' no_file) files') as Ik by (intros k Bk; split; apply nth_In; lia).
    destruct (Ik i ltac:(lia)) as [Ii Ii']. destruct (Ik j ltac:(lia)) as [Ij Ij'].
    destruct (Hf _ Ii) as (_ & Gi & Ti). destruct (Hf _ Ij) as (_ & Gj & Tj). destruct (Hf' _ Ii') as (_ & _ & Ti'). destruct (Hf' _ Ij') as (_ & _ & Tj').
    set (fi := nth i files no_file) in *. set (fj := nth j files no_file) in *. set (fi' := nth i files' no_file) in *. set (fj' := nth j files' no_file) in *.
    assert (file_coords fi <> []) as N1 by (intros E; rewrite E in Ec; discriminate).
    assert (file_coords fj <> []) as N2 by (intros E; rewrite E in Ec; destruct (file_coords fi); discriminate).
    destruct (C33_common_points_partial 32 H W (file_coords fi) (file_coords fj)) as (ii & jj & Ef & Lc & Eq & _ & _); auto; [lia|].
    rewrite Ef in Ec. injection Ec as -> ->.
    set (ti := nth i (tiles t) (BBox 0 0 0 0)) in *. set (tj := nth j (tiles t) (BBox 0 0 0 0)) in *.
    pose proof (taken_shape fi ti bands c1 Ti) as S1. pose proof (taken_shape fj tj bands c2 Tj) as S2.
    pose proof (taken_shape fi' ti bands c1 Ti') as S1'. pose proof (taken_shape fj' tj bands c2 Tj') as S2'. rewrite <- Lc in S2, S2'.
    destruct (pairwise_unwrapped_diff_deciles _ _) as [stats|] eqn:Ed; [|discriminate]. cbn [bind]. intros E Hst. injection E as <-.
    assert (Forall2 (Forall2 negs) (cycles_of (take_cols (snd (load_uw_tile fi ti)) c1) (take_cols (snd (load_uw_tile fj tj)) c2))
       (cycles_of (take_cols (snd (load_uw_tile fi' ti)) c1) (take_cols (snd (load_uw_tile fj' tj)) c2))) as F.
    { apply (matrix_neg _ _ bands (length c1)); [now apply cycles_shape|now apply cycles_shape|].
      intros b m Bb Bm. rewrite (cycles_at _ _ bands (length c1) b m S1 S2 Bb Bm), (cycles_at _ _ bands (length c1) b m S1' S2' Bb Bm).
      destruct (Eq m Bm) as (B1 & B2 & Ex).
      assert (forall fl, length (file_coords fl) = length (tf_points fl)) as Lp by (intros fl; unfold file_coords; apply map_length).
      rewrite Lp in B1, B2.
      assert (tf_points fi' = tf_points fi /\ tf_points fj' = tf_points fj) as [Ei Ej] by (split; apply (proj2 Ly)).
      rewrite (taken_at fi ti bands c1 b m Ti Bb Bm B1), (taken_at fj tj bands c2 b m Tj Bb ltac:(lia) B2).
      rewrite (taken_at fi' ti bands c1 b m Ti' Bb Bm), (taken_at fj' tj bands c2 b m Tj' Bb ltac:(lia)) by (rewrite ?Ei, ?Ej; assumption).
      pose proof (Mf b i _ Bb B1) as M1. pose proof (Mf b j _ Bb B2) as M2. fold fi fi' in M1. fold fj fj' in M2.
      unfold cycle_diff. rewrite M1, M2. pose proof twopi_pos. field. lra. }
    edestruct (deciles_neg (nd_of (length c1) (take_cols (snd (load_uw_tile fi ti)) c1)) (nd_of (length c2) (take_cols (snd (load_uw_tile fj tj)) c2)) (nd_of (length c1) (take_cols (snd (load_uw_tile fi' ti)) c1)) (nd_of (length c2) (take_cols (snd (load_uw_tile fj' tj)) c2)) stats) as (stats' & Es' & Fs); [| |exact F| |exact Ed| |].
    - unfold nd_of. cbn [nd_shape]. now rewrite (proj1 S1), (proj1 S1').
    - unfold nd_of. cbn [nd_shape]. now rewrite (proj1 S2), (proj1 S2').
    - unfold nd_of. cbn [nd_rows]. intros row I. pose proof (proj2 (cycles_shape _ _ _ _ S1 S2) row I) as Lr. intros ->. cbn in Lr.
      unfold pairwise_unwrapped_diff_deciles in Ed. unfold nd_of in Ed. cbn [nd_shape nth] in Ed. rewrite <- Lr in Ed.
      destruct (negb _); [discriminate|]. destruct (negb _); [discriminate|]. cbn in Ed. discriminate.
    - intros row I. now apply (Hst _ row eq_refl).
    - rewrite Es'. cbn [bind]. eexists. split; [reflexivity|]. repeat split. exact Fs.
  Qed.

  Lemma recorded_neg f : compute_phasediff_deciles comps min_points files t = Ok f ->
    (forall g row, In g (of_groups f) -> In row (og_stats g) -> ~ In (- 2 ^ 15)%Z row) ->
    exists f', compute_phasediff_deciles comps min_points files' t = Ok f' /\ opposite_overlaps f f'.
  Proof using All.
    unfold compute_phasediff_deciles.
    assert (forall p, In p (get_overlaps t) -> (fst p < snd p < ntiles t)%nat) as Bp.
    { intros [i j] I. destruct (Props_Tile.C26_overlaps t) as (O1 & _). now apply (O1 i j). }
    destruct (map_res (overlap_pair min_points files t) (get_overlaps t)) as [gs|] eqn:E; [|discriminate]. cbn [bind]. intros Ef. injection Ef as <-.
    cbn [of_groups of_conn_comp of_overlaps]. intros Hst.
    assert (exists gs', map_res (overlap_pair min_points files' t) (get_overlaps t) = Ok gs' /\
      Forall2 opposite_group (flat_map (fun g => match g with Some g => [g] | None => [] end) gs) (flat_map (fun g => match g with Some g => [g] | None => [] end) gs')) as (gs' & E' & F).
    { revert gs E Hst. induction (get_overlaps t) as [|[i j] l IH]; cbn [map_res]; intros gs E Hst; [injection E as <-; exists []; split; [reflexivity|constructor]|].
      destruct (overlap_pair min_points files t (i, j)) as [o|] eqn:Eo; [|discriminate]. cbn [bind] in E. destruct (map_res _ l) as [gs0|]; [|discriminate]. cbn [bind] in E. injection E as <-.
      cbn [flat_map] in Hst. destruct (IH) with (gs := gs0) as (gs' & Eg & F); auto.
      { intros p I. apply Bp. now right. }
      { intros g row I. apply Hst. apply in_or_app. now right. }
      destruct (pair_neg i j o (Bp (i, j) (or_introl eq_refl)) Eo) as (o' & Eo' & K).
      { intros g row ->. apply Hst. now left. }
      rewrite Eo'. cbn [bind]. rewrite Eg. cbn [bind]. exists (o' :: gs'). split; [reflexivity|]. cbn [flat_map].
      destruct o as [g|], o' as [g'|]; try contradiction; cbn [app]; [now constructor|exact F]. }
    rewrite E'. cbn [bind]. eexists. split; [reflexivity|]. split; [exact F|]. cbn [of_groups of_conn_comp of_overlaps].
    assert (forall a b, Forall2 opposite_group a b -> map og_pair b = map og_pair a) as Ep.
    { induction 1 as [|g g' a b [K _] _ IH]; [reflexivity|]. cbn [map]. now rewrite K, IH. }
    rewrite (Ep _ _ F). auto.
  Qed.
End Recorded.
