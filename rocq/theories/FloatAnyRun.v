(** Rounded merge of arbitrary tiles. *)
From Verif Require Import Base BaseLemmas PoolProofs GraphModel TileModel TileSpec OverlapModel OverlapSpec BulkModel BulkProofs MergeModel MergeSpec BandProofs
  SlcModel SlcSpec PipelineSpec FloatMcfModel FloatMcfSpec FloatMcfRound FloatPhaseProofs FloatMergeModel FloatMergeSpec FloatMergeProofs FloatMergeRun
  FloatRunModel FloatRunProofs FloatAnySpec FloatAnyProofs.
From Coq Require Import List Sorting.Sorted ZifyBool Lqa.
Import ListNotations.
Set Default Goal Selector "!".
Local Open Scope Q_scope.
Opaque twopi.

(** Whatever the level [m] around which a phase is written, the result shows how
    large it was. *)
Lemma wrap_any fl u m raw R Y : rounding fl u -> u <= 1 # 1000 -> - R <= raw <= R -> - Y <= wrap_around_fl fl m raw <= Y ->
  near_cong (10 * u * (R + 2 * Y + 5)) (wrap_around_fl fl m raw) raw.
Proof.
  intros Hl Hu HR HY. pose proof (rd_nonneg _ _ Hl) as U0. pose proof twopi_hi as T.
  assert (0 <= R) as R0 by lra. assert (0 <= Y) as Y0 by lra. set (y := wrap_around_fl fl m raw) in *.
  assert (- (2 * Y + R + 4) <= m <= 2 * Y + R + 4) as Hm.
  { destruct (Qlt_le_dec R (Qabs m)) as [G|G].
    - assert (- Qabs m <= m <= Qabs m) as Bm by (apply abs_le; lra).
      destruct (wrap_near fl u Hl Hu (Qabs m) m raw Bm ltac:(lra)) as [W1 W2]. fold y in W1.
      set (k := twopi * inject_Z (turns fl m raw)) in *. clearbody k y.
      assert (u * Qabs m <= (1 # 1000) * Qabs m) by (apply Qmult_le_compat_r; lra).
      assert (Qabs m <= Y + (1 # 100) * Qabs m + (1 # 100) + (twopi * (1 # 2) + (13 # 1000) * Qabs m)) as Q1 by (apply abs_le; lra).
      lra.
    - apply abs_le in G. lra. }
  destruct (wrap_near fl u Hl Hu (R + 2 * Y + 4) m raw ltac:(lra) ltac:(lra)) as [W1 _]. fold y in W1.
  exists (- turns fl m raw)%Z. unfold within. rewrite inject_Z_opp. apply abs_le. set (z := inject_Z _) in *. clearbody z y. lra.
Qed.

(** ** Files and raw phases survive the adjustment *)
Lemma adjust_keeps fl solve f omap l : forall ts ts', fold_res (adjust_pass_fl fl solve f omap) ts l = Ok ts' ->
  map (fun t => (ft_file t, ft_raw t)) ts' = map (fun t => (ft_file t, ft_raw t)) ts.
Proof.
  induction l as [|d l IH]; intros ts ts' E; cbn [fold_res] in E; [now injection E as <-|].
  destruct (adjust_pass_fl fl solve f omap ts d) as [ts1|] eqn:E1; [|discriminate E]. cbn [bind] in E.
  rewrite (IH _ _ E). unfold adjust_pass_fl in E1. apply map_res_nth in E1 as [L E1]. rewrite seq_length in L.
  apply nth_error_ext_list. intros i. rewrite !nth_error_map. destruct (nth_error ts i) as [t|] eqn:Et.
  - assert (i < length ts)%nat as B by (apply nth_error_Some; congruence).
    specialize (E1 i O t). rewrite seq_length, seq_nth, Nat.add_0_l in E1 by exact B. specialize (E1 B).
    rewrite (nth_error_nth' ts1 t) by lia. cbn [option_map]. f_equal. unfold adjust_tile_fl in E1. rewrite Et in E1.
    destruct (nth_error omap i); [|discriminate E1]. destruct (fold_res _ _ _) as [[c s]|]; [|discriminate E1]. cbn [bind] in E1.
    destruct (negb _) in E1; [now injection E1 as <-|]. destruct (dirichlet_fl _ _ _ _ _); [|discriminate E1]. now injection E1 as <-.
  - assert (nth_error ts1 i = None) as -> by (apply nth_error_None in Et; apply nth_error_None; lia). reflexivity.
Qed.

(** A pixel of a tile has a model value. *)
Lemma model_some fl ts x : (forall t, In t ts -> NoDup (ft_coords t)) -> (exists t, In t ts /\ In x (ft_coords t)) ->
  exists m, model_fl fl ts x = Some m.
Proof.
  intros Nd Hx. unfold model_fl.
  assert (forall a : image Q * image nat, (snd a x <= snd (fold_left (accumulate_fl fl) ts a) x)%nat /\
    ((exists t, In t ts /\ In x (ft_coords t)) -> (snd a x < snd (fold_left (accumulate_fl fl) ts a) x)%nat)) as H.
  { clear Hx. revert Nd. induction ts as [|t ts IH]; intros Nd a; cbn [fold_left]; [split; [apply Nat.le_refl|intros (t & [] & _)]|].
    destruct (IH (fun t I => Nd t (or_intror I)) (accumulate_fl fl a t)) as [I1 I2].
    assert ((snd a x <= snd (accumulate_fl fl a t) x)%nat /\ (In x (ft_coords t) -> (snd a x < snd (accumulate_fl fl a t) x)%nat)) as [A1 A2].
    { unfold accumulate_fl. cbn [snd]. destruct (in_dec point_dec x (ft_coords t)) as [I|I].
      - apply In_nth_error in I as (p & Ep). pose proof (nth_error_Some (ft_coords t) p) as B. rewrite Ep in B.
        rewrite (scatter_in _ _ _ _ p O (Nd t (or_introl eq_refl))) by (auto; now rewrite map_length).
        rewrite (map_nth' _ _ _ x) by (apply B; discriminate). rewrite (nth_error_nth _ _ x Ep). split; [apply Nat.le_succ_diag_r|intros; apply Nat.lt_succ_diag_r].
      - rewrite scatter_out by exact I. split; [apply Nat.le_refl|contradiction]. }
    split; [exact (Nat.le_trans _ _ _ A1 I1)|]. intros (t' & [<-|It] & Ix); [exact (Nat.lt_le_trans _ _ _ (A2 Ix) I1)|].
    exact (Nat.le_lt_trans _ _ _ A1 (I2 (ex_intro _ t' (conj It Ix)))). }
  destruct (H (fun _ => 0, fun _ => O)) as [_ H2]. specialize (H2 Hx). cbn [snd] in H2.
  set (a := fold_left _ _ _) in *. destruct (snd a x); [now apply Nat.lt_irrefl in H2|eauto].
Qed.

Section Merge.
  Context (fl fd fc : Q -> Q) (u : Q) (Hl : rounding fl u) (Hu : u <= 1 # 1000).
  Context (comps : nat -> list (nat * nat) -> list nat) (minp : Z) (mip : mip -> option (list Z)) (lsq : list (list Q) -> list Q -> list Q)
          (solve : list (Z * Z) -> list bool -> list Q -> res (list Q)).
  Context (t : tileset) (mask : list (list bool)) (files : list tile_file) (bands k : nat).
  Hypothesis Hlen : length files = ntiles t.
  Hypothesis Hbands : forall g, In g files -> tile_bands bands g.
  Hypothesis Hnd : forall g, In g files -> NoDup (file_coords g).
  Hypothesis Hk : (k < bands)%nat.

  Lemma raw_nth g p : In g files -> (p < length (file_coords g))%nat ->
    let raw := map (fun x => fl (x + nth k (tf_offset g) 0)) (nth k (tf_uw g) []) in
    length raw = length (file_coords g) /\ nth p raw 0 = fl (MergeSpec.phase_of g k p).
  Proof.
    intros Ig Bp. destruct (Hbands g Ig) as (B1 & B2 & B3). cbv zeta.
    assert (length (nth k (tf_uw g) []) = length (file_coords g)) as Lu.
    { unfold file_coords. rewrite map_length. apply B3, nth_In. lia. }
    rewrite map_length. split; [exact Lu|]. rewrite (map_nth' _ _ _ 0) by lia. reflexivity.
  Qed.

  (** The output at a pixel: none off the tiles; else a phase of one of the tiles,
      up to whole cycles. *)
  Lemma merged_any r x : merged_fl fl fd fc comps minp mip lsq solve t mask files k = Ok r -> in_shape (shape t) x = true ->
    ((forall g, In g files -> ~ In x (file_coords g)) /\ pixel r x = None) \/
    exists g p y, In g files /\ nth_error (file_coords g) p = Some x /\ pixel r x = Some y /\
      forall R Y, - R <= MergeSpec.phase_of g k p <= R -> - Y <= y <= Y ->
        near_cong (12 * u * (R + 2 * Y + 5)) y (MergeSpec.phase_of g k p).
  Proof.
    pose proof (rd_nonneg _ _ Hl) as U0.
    assert (forall (ph raw y R Y : Q), raw = fl ph -> - R <= ph <= R -> - Y <= y <= Y ->
      near_cong (10 * u * ((1001 # 1000) * R + 2 * Y + 5)) y raw -> near_cong (12 * u * (R + 2 * Y + 5)) y ph) as Step.
    { intros ph raw y R Y -> BR BY [z Z]. exists z. unfold within in *. apply abs_le in Z. apply abs_le.
      pose proof (rd_bound fl u Hl ph R BR). assert (0 <= u * R) by (apply Qmult_le_0_compat; lra). assert (0 <= u * Y) by (apply Qmult_le_0_compat; lra).
      set (q := twopi * inject_Z z) in *. clearbody q. lra. }
    intros Em Hx. unfold merged_fl in Em. destruct (Nat.eqb_spec (ntiles t) 1) as [N1|N1].
    - (* a single tile *)
      set (g := nth 0 files _) in Em. assert (In g files) as Ig by (apply nth_In; lia).
      assert (forall g', In g' files -> g' = g) as Ug.
      { intros g' I'. apply (In_nth _ _ (TileFile [] (BBox 0 0 0 0) [] [])) in I' as (i & Bi & <-). now replace i with 0%nat by lia. }
      clearbody g. unfold single_band_fl in Em.
      destruct (negb _); [discriminate|]. destruct (negb _); [discriminate|]. cbv zeta in Em.
      set (raw := map (fun x => fl (x + _)) _) in Em. injection Em as <-. rewrite tabulate_pixel by exact Hx.
      destruct (in_dec point_dec x (file_coords g)) as [I|I].
      + right. apply In_nth_error in I as (p & Ep). assert (p < length (file_coords g))%nat as Bp by (apply nth_error_Some; congruence).
        destruct (raw_nth g p Ig Bp) as [Lr Er]. fold raw in Lr, Er. exists g, p, (nth p raw 0). split; [exact Ig|]. split; [exact Ep|]. split.
        * rewrite (scatter_in _ (map Some raw) _ x p (Some 0)); [now rewrite (map_nth Some)|now apply Hnd|now rewrite map_length|exact Ep].
        * intros R Y BR BY. apply (Step _ (nth p raw 0) _ R Y Er BR BY). exists 0%Z. unfold within. change (inject_Z 0) with 0. apply abs_le.
          assert (0 <= u * R) by (apply Qmult_le_0_compat; lra). assert (0 <= u * Y) by (apply Qmult_le_0_compat; lra). lra.
      + left. split; [intros g' I'; now rewrite (Ug g' I')|]. now rewrite scatter_out.
    - destruct (compute_phasediff_deciles_fl _ _ _ _ _ _) as [f|]; [|discriminate]. cbn [bind] in Em.
      destruct (get_bulk_offsets _ _ _ _ _ _) as [[bulk rr]|]; [|discriminate]. cbn [bind fst] in Em.
      destruct (overlap_map f) as [omap|]; [|discriminate]. cbn [bind] in Em.
      destruct (get_max_degree _ _) as [md|]; [|discriminate]. cbn [bind] in Em. unfold merge_band_fl in Em.
      destruct (start_tiles_fl fl fd files bulk k) as [ts0|] eqn:E0; [|discriminate]. cbn [bind] in Em.
      destruct (adjust_tiles_fl _ _ _ _ _ _) as [ts|] eqn:E1; [|discriminate]. cbn [bind] in Em.
      unfold adjust_tiles_fl in E1. apply adjust_keeps in E1.
      assert (map (fun t => (ft_file t, ft_raw t)) ts0 = map (fun g => (g, map (fun x => fl (x + nth k (tf_offset g) 0)) (nth k (tf_uw g) []))) files) as E2.
      { unfold start_tiles_fl in E0. clear - E0. revert E0. generalize 0%nat. revert ts0.
        generalize files. intros fs. induction fs as [|g gs IH]; intros ts0 s E; cbn [length seq combine map_res] in E; [now injection E as <-|].
        destruct (start_tile_fl fl fd _ _ bulk k) as [t1|] eqn:E1; [|discriminate]. cbn [bind] in E.
        destruct (map_res _ _) as [t2|] eqn:E2; [|discriminate]. cbn [bind] in E. injection E as <-. cbn [map]. f_equal; [|exact (IH t2 (S s) E2)].
        cbn [fst snd] in E1. unfold start_tile_fl in E1. destruct (negb _); [discriminate|]. destruct (negb _); [discriminate|]. now injection E1 as <-. }
      rewrite E2 in E1. set (rw := fun g => map (fun x => fl (x + nth k (tf_offset g) 0)) (nth k (tf_uw g) [])) in *.
      assert (forall i tt, nth_error ts i = Some tt -> nth_error files i = Some (ft_file tt) /\ ft_raw tt = rw (ft_file tt)) as Hts.
      { intros i tt Ei. pose proof (f_equal (fun l => nth_error l i) E1) as X. cbv beta in X. rewrite !nth_error_map, Ei in X. cbn [option_map] in X.
        destruct (nth_error files i) as [g|]; [|discriminate X]. cbn [option_map] in X. injection X as X1 X2. rewrite X1, X2. auto. }
      assert (forall tt, In tt ts -> In (ft_file tt) files /\ ft_raw tt = rw (ft_file tt)) as HtsI.
      { intros tt I. apply In_nth_error in I as (i & Ei). destruct (Hts i tt Ei) as [X1 X2]. split; [eapply nth_error_In; eauto|exact X2]. }
      assert (forall tt, In tt ts -> NoDup (ft_coords tt) /\ length (ft_raw tt) = ft_npoints tt) as Hgood.
      { intros tt I. destruct (HtsI tt I) as [Ig Er]. split; [now apply Hnd|]. rewrite Er. unfold ft_npoints, ft_coords, rw. rewrite map_length.
        destruct (Hbands _ Ig) as (B1 & B2 & B3). unfold file_coords. rewrite map_length. apply B3, nth_In. lia. }
      destruct (merged_pixel fl ts (shape t) r x Em Hx Hgood) as [[Z E]|(j & tt & p & Ej & Ep & _ & Epx)].
      + left. split; [|exact E]. intros g Ig. apply In_nth_error in Ig as (i & Ei).
        pose proof (f_equal (fun l => nth_error l i) E1) as X. cbv beta in X. rewrite !nth_error_map, Ei in X. cbn [option_map] in X.
        destruct (nth_error ts i) as [tt|] eqn:Et; [|discriminate X]. cbn [option_map] in X. injection X as X1 _. rewrite <- X1. apply (Z tt). eapply nth_error_In; eauto.
      + right. assert (In tt ts) as It by (eapply nth_error_In; eauto). destruct (HtsI tt It) as [Ig Er].
        destruct (model_some fl ts x (fun t I => proj1 (Hgood t I))) as [m Em'].
        { exists tt. split; [exact It|]. eapply nth_error_In; eauto. }
        rewrite Em' in Epx. cbn [option_map] in Epx. assert (p < length (file_coords (ft_file tt)))%nat as Bp by (apply nth_error_Some; unfold ft_coords in Ep; congruence).
        destruct (raw_nth (ft_file tt) p Ig Bp) as [_ Erp]. fold (rw (ft_file tt)) in Erp. rewrite <- Er in Erp.
        exists (ft_file tt), p, (wrap_around_fl fl m (nth p (ft_raw tt) 0)). split; [exact Ig|]. split; [exact Ep|]. split; [exact Epx|].
        intros R Y BR BY. apply (Step _ (nth p (ft_raw tt) 0) _ R Y Erp BR BY). apply (wrap_any fl u m); auto.
        rewrite Erp. pose proof (rd_bound fl u Hl _ R BR). assert (u * R <= (1 # 1000) * R) by (apply Qmult_le_compat_r; lra). lra.
  Qed.
End Merge.
