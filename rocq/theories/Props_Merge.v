(** C37, C39 - C42: corrections of a tile, adjustment of overlapping tiles,
    merged rasters. *)
From Verif Require Import Base BaseLemmas PoolProofs GraphModel TileModel TileSpec OverlapModel OverlapSpec BulkModel BulkProofs
  DirichletModel MergeModel MergeSpec TileStateProofs AdjustProofs BandProofs MergeBatchProofs DescribeProofs.
From Coq Require Import List ZifyBool Lqa Permutation.
Import ListNotations.
Set Default Goal Selector "!".
Local Open Scope Q_scope.

(** * C37 *)

(** The phase is the raw phase plus the first [level] corrections. *)
Theorem C37_phase t level b p : tile_ok t -> (b < length (t_idx t))%nat -> (p < npoints t)%nat ->
  at_ (get_uw_phase t level) b p ==
  at_ (t_raw t) b p + sumQ (map (fun c => at_ c b p) (firstn level (t_corr t))).
Proof. intros H. now apply uw_at. Qed.

Lemma sum_firstn_app (l : list matrix) m n b p :
  sumQ (map (fun c => at_ c b p) (firstn n (l ++ [m]))) ==
  sumQ (map (fun c => at_ c b p) (firstn n l)) + (if (n <=? length l)%nat then 0 else at_ m b p).
Proof.
  rewrite firstn_app. rewrite map_app, sumQ_app. destruct (Nat.leb_spec n (length l)) as [L|L].
  - replace (n - length l)%nat with O by lia. cbn. ring.
  - destruct (n - length l)%nat as [|k] eqn:E; [lia|]. rewrite firstn_cons, firstn_nil. unfold sumQ at 2. cbn [map fold_right]. ring.
Qed.

(** Adding a correction changes the phase by nothing if the current level does
    not exceed the number of corrections, and by its value otherwise. *)
Theorem C37_add_partial t a t' b p : tile_ok t -> rectangular a -> add_correction t a = Ok t' ->
  (b < length (t_idx t))%nat -> (p < npoints t)%nat ->
  tile_ok t' /\ length (t_corr t') = S (length (t_corr t)) /\ t_level t' = t_level t /\
  at_ (uw_phase t') b p ==
  at_ (uw_phase t) b p + (if (t_level t <=? length (t_corr t))%nat then 0 else value (length (t_idx t)) a b p).
Proof.
  intros Ht Hr H Hb Hp. apply add_ok in H as (m & -> & Ht' & Sm & V); auto. split; [auto|]. cbn [t_corr t_level].
  split; [rewrite app_length; cbn; lia|]. split; [auto|]. unfold uw_phase. rewrite (uw_at _ Ht'), (uw_at _ Ht) by auto.
  cbn [t_corr t_level t_raw]. rewrite sum_firstn_app. destruct (_ <=? _)%nat; [ring|]. rewrite V by auto. ring.
Qed.

(** A tile with level 1 and no correction: the new correction is active at
    once. *)
Theorem C37_add_refuted :
  ~ (forall t a t' b p, tile_ok t -> rectangular a -> add_correction t a = Ok t' ->
     (b < length (t_idx t))%nat -> (p < npoints t)%nat -> at_ (uw_phase t') b p == at_ (uw_phase t) b p).
Proof.
  intros H.
  specialize (H (Tile (TileFile [(0, 0)%Z] (BBox 0 0 1 1) [[0]] [0]) [O] [[0]] [] 1) (ANum 1)
                (Tile (TileFile [(0, 0)%Z] (BBox 0 0 1 1) [[0]] [0]) [O] [[0]] [[[1]]] 1) O O).
  assert (1 == 0) as E; [|discriminate E]. change (at_ (uw_phase (Tile (TileFile [(0, 0)%Z] (BBox 0 0 1 1) [[0]] [0]) [O] [[0]] [[[1]]] 1)) 0 0
    == at_ (uw_phase (Tile (TileFile [(0, 0)%Z] (BBox 0 0 1 1) [[0]] [0]) [O] [[0]] [] 1)) 0 0).
  apply H; [|exact I|reflexivity|cbn; lia|cbn; lia]. split; [|intros c []]. split; [reflexivity|]. intros r [<-|[]]. reflexivity.
Qed.

(** What is taken as a correction of [nb] bands at [np] points: a number, one number
    in an array, a number for each band, for each point, or for both. *)
Definition usable (nb np : nat) (a : carg) : Prop :=
  match a with
  | ANum _ => True
  | A1 l => length l = 1%nat \/ length l = nb \/ length l = np
  | A2 ncols rows => (ncols = 1%nat /\ length rows = 1%nat) \/ (ncols = np /\ (length rows = nb \/ length rows = 1%nat))
  end.
(** Anything else raises ValueError. *)
Theorem C37_add_usable t a : rectangular a ->
  (usable (length (t_idx t)) (npoints t) a -> exists t', add_correction t a = Ok t') /\
  (~ usable (length (t_idx t)) (npoints t) a -> add_correction t a = Err ValueError).
Proof.
  intros R. unfold add_correction. generalize (length (t_idx t)) (npoints t). intros nb np.
  assert ((exists m, broadcast nb np a = Ok m) /\ usable nb np a \/ broadcast nb np a = Err ValueError /\ ~ usable nb np a) as [[(m & ->) U]|[-> U]].
  2:{ split; [intros _; eexists; reflexivity|intros N; now destruct N]. }
  2:{ split; [intros N; now destruct U|reflexivity]. }
  destruct a as [q|l|nc rows]; cbn [broadcast usable].
  - left. eauto.
  - destruct l as [|q [|q' l]]; [|left; split; [eauto|cbn; auto]|].
    all: repeat match goal with |- context [if (?x =? ?y)%nat then _ else _] => destruct (Nat.eqb_spec x y); [left; split; [eauto|cbn [length] in *; lia]|] end.
    all: right; split; [reflexivity|cbn in *; lia].
  - cbn [rectangular] in R. destruct rows as [|[|q [|q' r]] rows]; [| | |].
    all: try (destruct rows as [|r2 rows]).
    all: try (left; split; [eauto|]; specialize (R _ (or_introl eq_refl)); cbn in *; lia).
    all: try specialize (R _ (or_introl eq_refl)); cbn [length negb] in *.
    all: repeat match goal with |- context [if negb (?x =? ?y)%nat then _ else _] => destruct (Nat.eqb_spec x y); cbn [negb] | |- context [if (?x =? ?y)%nat then _ else _] => destruct (Nat.eqb_spec x y) end.
    all: try (left; split; [eexists; reflexivity|lia]).
    all: right; split; [reflexivity|lia].
Qed.

Example C37_usable : usable 2 3 (A1 [1; 2; 3]) /\ usable 2 3 (A2 3 [[1; 2; 3]]) /\ ~ usable 2 3 (A1 [1; 2; 3; 4]).
Proof. cbn. lia. Qed.

(** Incrementing the level activates the next correction, if there is one. *)
Theorem C37_increment t b p : tile_ok t -> (b < length (t_idx t))%nat -> (p < npoints t)%nat ->
  tile_ok (increment_correction t) /\
  at_ (uw_phase (increment_correction t)) b p ==
  at_ (uw_phase t) b p + match nth_error (t_corr t) (t_level t) with Some c => at_ c b p | None => 0 end.
Proof.
  intros Ht Hb Hp. assert (tile_ok (increment_correction t)) as Ht' by exact Ht. split; [auto|].
  unfold uw_phase. rewrite (uw_at _ Ht'), (uw_at _ Ht) by auto. cbn [increment_correction t_corr t_level t_raw].
  generalize (t_corr t) as l. generalize (t_level t) as n. clear. induction n as [|n IH]; intros [|c l]; cbn [firstn nth_error map].
  - ring.
  - unfold sumQ. cbn [fold_right]. ring.
  - ring.
  - change (sumQ (at_ c b p :: ?x)) with (at_ c b p + sumQ x). specialize (IH l). cbn [firstn] in IH. 
    change (firstn (S n) l) with (match l with [] => [] | a :: l0 => a :: firstn n l0 end) in IH. lra.
Qed.

(** Compressing: with one correction active and a second one pending, the
    pending one is added; in all other cases the phase stays. More than two
    corrections raise RuntimeError. *)
Theorem C37_compress t t' b p : tile_ok t -> compress_corrections t = Ok t' ->
  (b < length (t_idx t))%nat -> (p < npoints t)%nat ->
  tile_ok t' /\ (length (t_corr t') <= 1)%nat /\ t_level t' = t_level t /\
  at_ (uw_phase t') b p ==
  at_ (uw_phase t) b p + (if (t_level t =? 1)%nat then match t_corr t with [_; d] => at_ d b p | _ => 0 end else 0).
Proof.
  intros Ht H Hb Hp. apply compress_ok in H as (L & Ht' & E1 & E2 & E3 & E4 & E5); [|auto]. split; [auto|].
  assert (npoints t' = npoints t) as En by (unfold npoints, coords; now rewrite E1).
  split; [destruct (t_corr t) as [|c [|d [|e l]]]; rewrite E5; cbn [length] in *; lia|]. split; [auto|].
  unfold uw_phase. rewrite (uw_at _ Ht'), (uw_at _ Ht) by (rewrite ?E2, ?En; auto). rewrite E3, E4.
  destruct Ht as [_ Hc]. destruct (t_corr t) as [|c [|d [|e l]]]; rewrite E5.
  - destruct (_ =? 1)%nat; ring.
  - destruct (_ =? 1)%nat; ring.
  - destruct (t_level t) as [|[|n]]; cbn [firstn Nat.eqb map]; unfold sumQ; cbn [fold_right]; try ring.
    + rewrite (at_madd _ _ (length (t_idx t)) (npoints t)); auto; try (apply Hc; cbn; auto). ring.
    + rewrite !firstn_nil. cbn [map fold_right]. rewrite (at_madd _ _ (length (t_idx t)) (npoints t)); auto; try (apply Hc; cbn; auto). ring.
  - cbn in L. lia.
Qed.
Theorem C37_compress_error t : (length (t_corr t) <= 2)%nat <-> exists t', compress_corrections t = Ok t'.
Proof.
  unfold compress_corrections. destruct (t_corr t) as [|c [|d [|e l]]].
  - cbn. split; [eauto|lia].
  - cbn. split; [eauto|lia].
  - cbn. split; [eauto|lia].
  - split; [cbn; lia|]. intros (t' & E). change (removelast (d :: e :: l)) with (d :: removelast (e :: l)) in E.
    cbn [length] in E. discriminate E.
Qed.

Theorem C37_reset t b p : tile_ok t -> (b < length (t_idx t))%nat -> (p < npoints t)%nat ->
  tile_ok (reset_corrections t) /\ at_ (uw_phase (reset_corrections t)) b p == at_ (t_raw t) b p /\
  at_ (raw_uw_phase t) b p == at_ (t_raw t) b p.
Proof.
  intros Ht Hb Hp. assert (tile_ok (reset_corrections t)) as Ht' by (split; [exact (proj1 Ht)|intros c []]). split; [auto|].
  unfold raw_uw_phase, uw_phase. rewrite (uw_at _ Ht'), (uw_at _ Ht) by auto. cbn [reset_corrections t_level t_corr t_raw firstn map].
  unfold sumQ. cbn [fold_right]. split; ring.
Qed.

(** Setting the bands: phases of those bands plus the phase of the first pixel,
    no correction. *)
Theorem C37_reset_band_index f idx t : file_ok f -> reset_band_index f idx = Ok t ->
  tile_ok t /\ t_file t = f /\ t_idx t = idx /\ t_corr t = [] /\ t_level t = O /\
  forall k p, (k < length idx)%nat -> (p < length (tf_points f))%nat ->
    at_ (t_raw t) k p = phase_of f (nth k idx O) p.
Proof.
  intros Hf H. apply reset_ok in H as (H1 & H2 & H3 & H4 & H5 & H6); [|auto]. repeat (split; [auto|]). exact H6.
Qed.

(** After any history of operations on a fresh tile nothing is lost: the raw
    phase is untouched and with all corrections applied the phase is the raw
    phase plus everything added since the last reset. *)
Theorem C37_history t os t' b p : tile_ok t -> t_corr t = [] -> all_rectangular os -> run t os = Ok t' ->
  (b < length (t_idx t))%nat -> (p < npoints t)%nat ->
  t_raw t' = t_raw t /\ t_idx t' = t_idx t /\ t_file t' = t_file t /\
  forall level, (length (t_corr t') <= level)%nat ->
    at_ (get_uw_phase t' level) b p ==
    at_ (t_raw t) b p + sumQ (map (fun a => value (length (t_idx t)) a b p) (added [] os)).
Proof.
  intros Ht Hc Hr H Hb Hp. apply (run_ok os t t' []) in H as (T & E1 & E2 & E3 & S); auto.
  - split; [auto|]. split; [auto|]. split; [auto|]. intros level L.
    assert (npoints t' = npoints t) as En by (unfold npoints, coords; now rewrite E1).
    rewrite (uw_at _ T) by (rewrite ?E2, ?En; auto). rewrite E3, firstn_all2 by auto. now rewrite <- (S b p Hb Hp).
  - intros b' p' _ _. unfold stored. rewrite Hc. reflexivity.
Qed.

(** The history of the merge loop: a bulk correction made active, then
    corrections that are compressed in at once. *)
Theorem C37_merge_history t a0 l t' b p : tile_ok t -> t_corr t = [] -> t_level t = O ->
  rectangular a0 -> (forall a, In a l -> rectangular a) -> run t (merge_history a0 l) = Ok t' ->
  (b < length (t_idx t))%nat -> (p < npoints t)%nat ->
  t_level t' = 1%nat /\ length (t_corr t') = 1%nat /\
  at_ (uw_phase t') b p ==
  at_ (t_raw t) b p + value (length (t_idx t)) a0 b p + sumQ (map (fun a => value (length (t_idx t)) a b p) l).
Proof.
  intros Ht Hc Hl R0 Rl H Hb Hp.
  assert (t_level t' = 1%nat /\ length (t_corr t') = 1%nat) as [L1 L2].
  { unfold merge_history in H. cbn [run step] in H. destruct (add_correction t a0) as [t1|] eqn:E1; [|discriminate]. cbn [bind] in H.
    apply add_ok in E1 as (m & -> & T1 & _); auto. eapply (merge_state l); [| |  | |exact H]; auto.
    - cbn [increment_correction t_level]. now rewrite Hl.
    - cbn [increment_correction t_corr]. now rewrite Hc. }
  split; [auto|]. split; [auto|].
  assert (all_rectangular (merge_history a0 l)) as Ra.
  { intros a [E|[E|I]]; [now injection E as <-|discriminate|]. apply in_flat_map in I as (x & Ix & [E|[E|[]]]); [|discriminate]. injection E as <-. auto. }
  destruct (C37_history t _ t' b p Ht Hc Ra H Hb Hp) as (_ & _ & _ & K). unfold uw_phase. rewrite K by lia.
  rewrite added_merge. cbn [map]. change (sumQ (?x :: ?y)) with (x + sumQ y). ring.
Qed.

Definition C37_file : tile_file := TileFile [(0, 0)%Z; (0, 1)%Z] (BBox 5 7 6 9) [[0; 1 # 2]; [0; 1]; [0; 3]] [1; 2; 3].
Example C37_witness : exists t, reset_band_index C37_file [0; 2]%nat = Ok t /\ file_ok C37_file /\
  t_raw t = [[0 + 1; (1 # 2) + 1]; [0 + 3; 3 + 3]] /\
  exists t', run t [OAdd (A1 [1; 2]); OInc; OAdd (A2 2 [[1; 0]; [0; 5]]); OCompress] = Ok t' /\
    Qeq_bool (at_ (uw_phase t') 0 0) 3 = true /\ Qeq_bool (at_ (uw_phase t') 1 1) 13 = true.
Proof.
  eexists. split; [reflexivity|]. split; [intros r [<-|[<-|[<-|[]]]]; reflexivity|]. split; [reflexivity|].
  eexists. split; [reflexivity|]. split; vm_compute; reflexivity.
Qed.

(** * C39 *)
Section Solvers.
Variables (cg : list (list Q) -> list Q -> list Q) (ilu : list (list Q) -> bool)
          (triangles : list (Z * Z) -> res (list (nat * nat * nat))).

Lemma contains_coords ts x : holders ts x = filter (fun t => existsb (point_eqb x) (coords t)) ts.
Proof. reflexivity. Qed.

(** Whatever the solvers return: after the adjustment the tiles agree, if the
    largest number of tiles at a pixel was found to be at least two. *)
Theorem C39_agree_partial f omap nb ts m ts' :
  describes f ts -> (forall t, In t ts -> ready nb t) -> overlap_map f = Ok omap ->
  adjust_tiles cg ilu triangles f omap m ts = Ok ts' -> (2 <= m)%nat ->
  agree nb ts' /\ length ts' = length ts /\
  (forall i, t_file (nth i ts' dtile) = t_file (nth i ts dtile) /\ t_raw (nth i ts' dtile) = t_raw (nth i ts dtile)).
Proof.
  intros [Hd Hcp] Hr Ho H Hm. unfold adjust_tiles in H.
  pose proof H as H0. apply (adjust_kept cg ilu triangles f nb) in H as ([L K] & Hr'); auto.
  apply (adjust_average cg ilu triangles f nb) in H0 as (ts0 & _ & A); auto.
  split; [|split; [auto|intros i; destruct (K i) as (K1 & _ & K3); auto]].
  intros b x t t' Hb I I'.
  assert (length (holders ts' x) = length (holders ts x)) as Lh by (apply holders_length; split; auto).
  destruct (Nat.lt_ge_cases (length (holders ts x)) 2) as [L2|L2].
  - destruct (holders ts' x) as [|u [|v l]]; [destruct I| |cbn in Lh; lia]. destruct I as [<-|[]], I' as [<-|[]]. reflexivity.
  - rewrite (A b x t), (A b x t') by auto. reflexivity.
Qed.

(** Fewer than 256 tiles, the degree as computed by [_get_max_degree]. *)
Theorem C39_agree_small_partial f omap nb ts sh m ts' :
  describes f ts -> (forall t, In t ts -> ready nb t) -> overlap_map f = Ok omap ->
  (length ts < 256)%nat -> get_max_degree (map coords ts) sh = Ok m ->
  adjust_tiles cg ilu triangles f omap m ts = Ok ts' ->
  agree nb ts' /\ length ts' = length ts /\
  (forall i, t_file (nth i ts' dtile) = t_file (nth i ts dtile) /\ t_raw (nth i ts' dtile) = t_raw (nth i ts dtile)).
Proof.
  intros Hd Hr Ho Hn Hg H. destruct (Nat.le_gt_cases 2 m) as [Hm|Hm]; [now apply (C39_agree_partial f omap nb ts m ts')|].
  assert (ts' = ts) as ->.
  { unfold adjust_tiles, adjust_tiles_in, degrees in H. replace (m - 1)%nat with O in H by lia. cbn in H. now injection H as <-. }
  split; [|auto]. intros b x t t' Hb I I'.
  pose proof (get_max_degree_ok (map coords ts) sh m Hg ltac:(rewrite map_length; auto) x) as D.
  assert (length (filter (fun c => existsb (point_eqb x) c) (map coords ts)) = length (holders ts x)) as E.
  { rewrite contains_coords. clear. induction ts as [|u l IH]; [auto|]. cbn. destruct (existsb _ (coords u)); cbn; lia. }
  rewrite E in D. assert (In x (concat (map coords ts))) as Ix.
  { apply filter_In in I as [I C]. apply in_concat. exists (coords t). split; [now apply in_map|]. apply contains_spec in C as (p & P).
    eapply nth_error_In; eauto. }
  specialize (D Ix). destruct (holders ts x) as [|u [|v l]]; [destruct I| |cbn in D; lia].
  destruct I as [<-|[]], I' as [<-|[]]. reflexivity.
Qed.

(** Tiles that agree already are not changed. *)
Theorem C39_fixed f omap nb ts m ts' :
  describes f ts -> (forall t, In t ts -> ready nb t) -> overlap_map f = Ok omap -> agree nb ts ->
  adjust_tiles cg ilu triangles f omap m ts = Ok ts' ->
  forall i b p, (i < length ts)%nat -> (b < nb)%nat -> (p < npoints (nth i ts dtile))%nat ->
    at_ (uw_phase (nth i ts' dtile)) b p == at_ (uw_phase (nth i ts dtile)) b p.
Proof.
  intros Hd Hr Ho Ha H. unfold adjust_tiles in H.
  exact (adjust_fixed cg ilu triangles f nb _ ts omap (proj1 Hd) Hr Ho (fun _ => Permutation_refl _) m ts' (proj2 Hd) Ha H).
Qed.

(** One pass: pixels in at least [degree] tiles get the average. *)
Theorem C39_pass f omap nb ts degree order ts' :
  describes f ts -> (forall t, In t ts -> ready nb t) -> overlap_map f = Ok omap -> Permutation order (seq 0 (length ts)) ->
  adjust_pass cg ilu triangles order f omap ts degree = Ok ts' ->
  forall b x t, (b < nb)%nat -> (degree <= length (holders ts x))%nat -> In t (holders ts' x) ->
    phase_at t b x == average_at ts b x.
Proof.
  intros Hd Hr Ho P H. rewrite (overlap_map_ok f ts (proj1 Hd)) in Ho. injection Ho as <-. eapply (pass_average cg ilu triangles f nb); eauto.
Qed.

(** The adjustment succeeds when every tile can be triangulated into a graph
    that uses all its points. Nothing is assumed about the factorisation of an
    empty matrix if every tile has a pixel of its own. *)
Theorem C39_total f omap nb ts m :
  recorded f ts -> (forall t, In t ts -> ready nb t) -> overlap_map f = Ok omap ->
  (forall t, In t ts -> exists lap, tile_laplacian triangles t = Ok lap /\ is_square lap = true /\ length lap = npoints t) ->
  (forall a, a <> [] -> ilu a = true) -> ilu [] = true \/ (forall i, (i < length ts)%nat -> own_pixel ts i) ->
  exists ts', adjust_tiles cg ilu triangles f omap m ts = Ok ts'.
Proof.
  intros Hd Hr Ho Hl Hi Hown. eapply (adjust_total cg ilu triangles f nb); eauto. intros i Bi. apply Hl, nth_In, Bi.
Qed.

(** * C40 *)
Theorem C40_order f omap ts degree order order' ts' :
  (forall t, In t ts -> t_level t = 1%nat /\ t_corr t <> []) -> NoDup order -> Permutation order order' ->
  (adjust_pass cg ilu triangles order f omap ts degree = Ok ts' <->
   adjust_pass cg ilu triangles order' f omap ts degree = Ok ts').
Proof.
  intros Ha Nd P. assert (Forall active ts) as A by (apply Forall_forall; exact Ha).
  split; intros H; [now apply (pass_order cg ilu triangles f omap degree ts order order')|].
  apply (pass_order cg ilu triangles f omap degree ts order' order); auto.
  - now apply (Permutation_NoDup P).
  - now apply Permutation_sym.
Qed.

(** The whole adjustment, with any order in each pass. *)
Theorem C40_all_passes f omap nb ts m orders ts' :
  recorded f ts -> (forall t, In t ts -> ready nb t) -> overlap_map f = Ok omap ->
  (forall d, Permutation (orders d) (seq 0 (length ts))) ->
  (adjust_tiles_in cg ilu triangles orders f omap m ts = Ok ts' <-> adjust_tiles cg ilu triangles f omap m ts = Ok ts').
Proof.
  intros Hd Hr Ho P. unfold adjust_tiles. rewrite !(adjust_fold cg ilu triangles f _ ts omap Hd Ho).
  generalize (degrees m). intros l. remember (length ts) as n eqn:En. revert ts En Hd Hr P. induction l as [|d l IH]; intros ts En Hd Hr P; [reflexivity|].
  cbn [fold_res]. subst n.
  assert (forall t, In t ts -> t_level t = 1%nat /\ t_corr t <> []) as Ha by (intros t I; eapply ready_active; apply Hr, I).
  assert (forall ts1, adjust_pass cg ilu triangles (orders d) f (map (neighbours f) (seq 0 (length ts))) ts d = Ok ts1 <->
    adjust_pass cg ilu triangles (seq 0 (length ts)) f (map (neighbours f) (seq 0 (length ts))) ts d = Ok ts1) as E.
  { intros ts1. apply C40_order; auto. eapply Permutation_NoDup; [apply Permutation_sym, P|apply seq_NoDup]. }
  assert (forall r1 r2 : res (list tile), (forall x, r1 = Ok x <-> r2 = Ok x) -> forall g1 g2 : list tile -> res (list tile),
    (forall x, r2 = Ok x -> (g1 x = Ok ts' <-> g2 x = Ok ts')) -> ((do x <- r1; g1 x) = Ok ts' <-> (do x <- r2; g2 x) = Ok ts')) as B.
  { intros r1 r2 Hr12 g1 g2 Hg. destruct r1 as [x|e], r2 as [y|e']; cbn [bind].
    - pose proof (proj1 (Hr12 x) eq_refl) as Exy. injection Exy as ->. now apply Hg.
    - pose proof (proj1 (Hr12 x) eq_refl). discriminate.
    - pose proof (proj2 (Hr12 y) eq_refl). discriminate.
    - split; discriminate. }
  apply B; [exact E|]. intros ts1 E1. apply (pass_ok cg ilu triangles f nb) in E1 as (K & Hr1 & _); auto. pose proof K as [L _].
  apply IH; auto. eapply recorded_kept; eauto.
Qed.
End Solvers.

(** More than 255 tiles at a pixel: the counters of [_get_max_degree] are 8 bits
    wide, 256 tiles count as none and nothing is adjusted. *)
Definition C39_tile (q : Q) : tile := Tile (TileFile [(0, 0)%Z] (BBox 0 0 1 1) [[q]] [0]) [O] [[q]] [[[0]]] 1.
Definition C39_tiles : list tile := C39_tile 0 :: repeat (C39_tile 1) 255.
Definition C39_pairs : list (nat * nat) := filter (fun e => (fst e <? snd e)%nat) (list_prod (seq 0 256) (seq 0 256)).
Definition C39_overlaps : overlap_file := OFile (map (fun e => OGroup e [O] [O] []) C39_pairs) (repeat O 256) C39_pairs.

Lemma nodup_app {A} (l m : list A) : NoDup l -> NoDup m -> (forall x, In x l -> In x m -> False) -> NoDup (l ++ m).
Proof.
  induction l as [|a l IH]; intros N N' D; [auto|]. apply NoDup_cons_iff in N as [Na N]. cbn. constructor.
  - intros I. apply in_app_or in I as [I|I]; [contradiction|]. eapply D; [now left|exact I].
  - apply IH; auto. intros x I. apply D. now right.
Qed.
Lemma nodup_prod {A B} (l : list A) (l' : list B) : NoDup l -> NoDup l' -> NoDup (list_prod l l').
Proof.
  induction l as [|a l IH]; intros N N'; [constructor|]. apply NoDup_cons_iff in N as [Na N]. cbn. apply nodup_app; auto.
  - apply FinFun.Injective_map_NoDup; [intros x y E; congruence|auto].
  - intros [x y] I J. apply in_map_iff in I as (z & E & _). injection E as <- <-. apply in_prod_iff in J as [J _]. contradiction.
Qed.
Lemma in_pairs i j : In (i, j) C39_pairs <-> (i < j < 256)%nat.
Proof. unfold C39_pairs. rewrite filter_In, in_prod_iff, !in_seq. cbn [fst snd]. rewrite Nat.ltb_lt. lia. Qed.
Lemma C39_tiles_in t : In t C39_tiles -> t = C39_tile 0 \/ t = C39_tile 1.
Proof. intros [<-|I]; [now left|]. right. eapply repeat_spec; eauto. Qed.
Lemma C39_tiles_length : length C39_tiles = 256%nat.
Proof. unfold C39_tiles. cbn [length]. now rewrite repeat_length. Qed.
Lemma C39_coords i : (i < 256)%nat -> coords (nth i C39_tiles dtile) = [(0, 0)%Z].
Proof. intros B. destruct (C39_tiles_in (nth i C39_tiles dtile)) as [-> | ->]; [apply nth_In; rewrite C39_tiles_length; exact B|reflexivity|reflexivity]. Qed.

Lemma C39_described : describes C39_overlaps C39_tiles.
Proof.
  split; [|intros i j x B1 B2 _ _; rewrite C39_tiles_length in B2; now apply in_pairs].
  unfold recorded. fold dtile. rewrite C39_tiles_length. split; [apply repeat_length|].
  split; [apply NoDup_filter, nodup_prod; apply seq_NoDup|]. cbn [C39_overlaps of_overlaps of_groups].
  split.
  - intros i j I. pose proof (proj1 (in_pairs i j) I). split; [lia|]. split; [lia|]. exists (OGroup (i, j) [O] [O] []).
    split; [|reflexivity]. now apply (in_map (fun e => OGroup e [O] [O] [])).
  - intros g i j I E. apply in_map_iff in I as (e & <- & I). cbn [og_pair] in E. subst e. apply in_pairs in I. cbn [og_c1 og_c2].
    split; [auto|]. split; [repeat constructor; intros []|]. split; [repeat constructor; intros []|]. intros p q.
    unfold point_of. rewrite !C39_coords by lia. split.
    + intros [E|[]]. injection E as <- <-. exists (0, 0)%Z. auto.
    + intros (x & E1 & E2). destruct p as [|[|p]]; try discriminate. destruct q as [|[|q]]; try discriminate. now left.
Qed.
Lemma C39_ready t : In t C39_tiles -> ready 1 t.
Proof.
  intros I. apply C39_tiles_in in I as [-> | ->]; (split; [split; [split|]|split; [|split; [|split]]]; try reflexivity;
    [intros r [<-|[]]; reflexivity|intros c [<-|[]]; (split; [reflexivity|]); intros r [<-|[]]; reflexivity|repeat constructor; intros []]).
Qed.

Theorem C39_count_refuted :
  ~ (forall cg ilu triangles f omap nb ts sh m ts',
     describes f ts -> (forall t, In t ts -> ready nb t) -> overlap_map f = Ok omap ->
     get_max_degree (map coords ts) sh = Ok m -> adjust_tiles cg ilu triangles f omap m ts = Ok ts' -> agree nb ts').
Proof.
  intros H. pose proof (overlap_map_ok _ _ (proj1 C39_described)) as Ho.
  specialize (H (fun _ b => b) (fun _ => true) (fun _ => Ok []) C39_overlaps _ 1%nat C39_tiles (1, 1)%Z O C39_tiles
    C39_described C39_ready Ho).
  assert (at_ (uw_phase (C39_tile 0)) 0 0 == at_ (uw_phase (C39_tile 1)) 0 0) as E; [|vm_compute in E; discriminate].
  apply (H ltac:(vm_compute; reflexivity) ltac:(reflexivity) O (0, 0)%Z (C39_tile 0) (C39_tile 1)); [lia| |].
  - apply filter_In. split; [now left|reflexivity].
  - apply filter_In. split; [right; change 255%nat with (S 254); now left|reflexivity].
Qed.

(** * C41 *)

(** A pixel without tiles is NaN in all three rasters; the model is the average
    of the tiles; the merged value is whole cycles away from the raw phase of a
    tile there and at most half a cycle from the average. *)
Theorem C41_merged bands k idx ts sh arr diff model x :
  NoDup bands -> (forall t, In t ts -> mergeable bands t) -> nth_error bands k = Some idx ->
  merged_band ts idx sh = Ok (arr, diff, model) -> in_shape sh x = true ->
  raster_shape arr sh /\ raster_shape diff sh /\ raster_shape model sh /\
  ((pixel arr x = None <-> holders ts x = []) /\ (pixel model x = None <-> holders ts x = [])) /\
  (forall v, pixel arr x = Some v -> exists t, In t (holders ts x) /\ congruent v (raw_at t k x) /\
     - (twopi / 2) <= v - average_at ts k x <= twopi / 2) /\
  (forall m, pixel model x = Some m -> m == average_at ts k x).
Proof.
  intros Nd Hm Hk H S. destruct (merged_values bands ts idx k sh Nd Hm Hk arr diff model H) as (_ & _ & E1 & E2 & E3).
  split; [subst arr; apply tabulate_shape|]. split; [subst diff; apply tabulate_shape|]. split; [subst model; apply tabulate_shape|]. clear E1 E2 E3.
  destruct (list_eq_dec (fun a b : nat => Nat.eq_dec a b) (map (fun _ => O) (holders ts x)) []) as [Ee|Ee].
  - assert (holders ts x = []) as E by (destruct (holders ts x); [auto|discriminate]).
    destruct (merged_nan bands ts idx k sh Nd Hm Hk arr diff model H x S E) as (-> & _ & ->). rewrite E.
    split; [split; split; auto|]. split; discriminate.
  - assert (holders ts x <> []) as Ne by (intros E; rewrite E in Ee; now apply Ee). destruct (exists_last Ne) as (l & t & El).
    destruct (merged_pixel bands ts idx k sh Nd Hm Hk arr diff model H x S l t El) as (m & v & Em & Am & Ev & Av). rewrite Em, Ev.
    split; [split; split; intros E; try discriminate; contradiction|]. split.
    + intros v' E. injection E as <-. exists t. split; [rewrite El; apply in_or_app; right; now left|].
      destruct (wrap_around_ok (average_at ts k x) (raw_at t k x)) as [[j C] B]. split; [exists j; rewrite Av; exact C|rewrite Av; exact B].
    + intros m' E. injection E as <-. exact Am.
Qed.

(** The diff raster: largest minus smallest tile phase where two or more tiles
    overlap, NaN elsewhere. *)
Theorem C41_diff bands k idx ts sh arr diff model x :
  NoDup bands -> (forall t, In t ts -> mergeable bands t) -> nth_error bands k = Some idx ->
  merged_band ts idx sh = Ok (arr, diff, model) -> in_shape sh x = true ->
  ((length (holders ts x) < 2)%nat -> pixel diff x = None) /\
  ((2 <= length (holders ts x))%nat -> exists t t', In t (holders ts x) /\ In t' (holders ts x) /\
     pixel diff x = Some (phase_at t k x - phase_at t' k x) /\
     forall u, In u (holders ts x) -> phase_at t' k x <= phase_at u k x <= phase_at t k x).
Proof. intros Nd Hm Hk H S. eapply merged_diff; eauto. Qed.

(** Merging succeeds for tiles inside the raster. *)
Theorem C41_total bands k idx ts sh :
  ts <> [] -> NoDup bands -> (forall t, In t ts -> mergeable bands t) -> nth_error bands k = Some idx ->
  (forall t x, In t ts -> contains t x = true -> in_shape sh x = true) ->
  exists r, merged_band ts idx sh = Ok r.
Proof. intros Ne Nd Hm Hk Hs. rewrite (merged_total bands ts idx sh k) by auto. eauto. Qed.

(** The output for a single tile: its phase where it has points, NaN elsewhere. *)
Theorem C41_single f idx sh r x : file_ok f -> NoDup (tf_points f) -> single_band f idx sh = Ok r -> in_shape sh x = true ->
  raster_shape r sh /\
  (~ In x (file_coords f) -> pixel r x = None) /\
  (forall p, nth_error (file_coords f) p = Some x -> exists v, pixel r x = Some v /\ v == phase_of f idx p).
Proof.
  intros Hf Np H S. unfold single_band in H. destruct (reset_band_index f [idx]) as [t|] eqn:E; [|discriminate]. cbn [bind] in H.
  destruct (negb _); [discriminate|]. injection H as <-. split; [apply tabulate_shape|]. rewrite tabulate_pixel by auto.
  apply reset_ok in E as (T & F & Ei & C & L & R); [|auto].
  assert (coords t = file_coords f) as Ec by (unfold coords; now rewrite F).
  assert (NoDup (coords t)) as Nc.
  { rewrite Ec. unfold file_coords. apply FinFun.Injective_map_NoDup; [|auto]. intros [a b] [a' b'] Ex. cbn in Ex. injection Ex as E1 E2. f_equal; lia. }
  split; [intros N; rewrite scatter_out; [reflexivity|now rewrite Ec]|]. intros p P. rewrite <- Ec in P.
  assert (p < npoints t)%nat as Pl by (eapply point_lt; exact P).
  assert (has_shape (raw_uw_phase t) 1 (npoints t)) as [Lr Hr].
  { pose proof (uw_shape t T 0) as S0. rewrite Ei in S0. exact S0. }
  assert (length (nth 0 (raw_uw_phase t) []) = npoints t) as Lrow by (apply Hr, nth_In; lia).
  rewrite (scatter_in _ _ _ x p None) by (auto; rewrite map_length; exact Lrow).
  rewrite (map_nth' _ _ _ 0) by lia. eexists. split; [reflexivity|].
  change (nth p (nth 0 (raw_uw_phase t) []) 0) with (at_ (raw_uw_phase t) 0 p). unfold raw_uw_phase.
  rewrite (uw_at _ T) by (rewrite ?Ei; cbn; auto; lia). rewrite R; [|cbn; lia|unfold npoints in Pl; rewrite Ec in Pl; unfold file_coords in Pl; now rewrite map_length in Pl].
  cbn [firstn map nth]. unfold sumQ, phase_of, at_. cbn [fold_right nth]. ring.
Qed.

(** * C42 *)

(** The order of the tiles has no influence on model and diff, and on the
    merged value it has none if the raw phases are congruent and none is exactly
    half a cycle from the average. *)
Theorem C42_order_partial bands k idx ts ts' sh arr diff model arr' diff' model' x :
  NoDup bands -> (forall t, In t ts -> mergeable bands t) -> nth_error bands k = Some idx -> Permutation ts ts' ->
  merged_band ts idx sh = Ok (arr, diff, model) -> merged_band ts' idx sh = Ok (arr', diff', model') ->
  in_shape sh x = true ->
  same_value (pixel model x) (pixel model' x) /\ same_value (pixel diff x) (pixel diff' x) /\
  ((forall t t', In t (holders ts x) -> In t' (holders ts x) -> congruent (raw_at t k x) (raw_at t' k x)) ->
   (forall t, In t (holders ts x) -> ~ half_cycle_tie (raw_at t k x) (average_at ts k x)) ->
   same_value (pixel arr x) (pixel arr' x)).
Proof.
  intros Nd Hm Hk P H H' S.
  assert (forall t, In t ts' -> mergeable bands t) as Hm' by (intros t I; apply Hm; eapply Permutation_in; [apply Permutation_sym|]; eauto).
  pose proof (holders_perm ts ts' x P) as Ph. pose proof (average_at_perm ts ts' k x P) as Pa.
  assert (same_value (pixel diff x) (pixel diff' x)) as Sd.
  { destruct (C41_diff bands k idx ts sh arr diff model x Nd Hm Hk H S) as [D1 D2].
    destruct (C41_diff bands k idx ts' sh arr' diff' model' x Nd Hm' Hk H' S) as [D1' D2']. pose proof (Permutation_length Ph) as L.
    destruct (Nat.lt_ge_cases (length (holders ts x)) 2) as [B|B].
    - rewrite D1, D1' by lia. exact I.
    - destruct (D2 B) as (t & u & It & Iu & -> & Bt). destruct (D2' ltac:(lia)) as (t' & u' & It' & Iu' & -> & Bt'). cbn.
      pose proof (Bt t' (Permutation_in _ (Permutation_sym Ph) It')). pose proof (Bt u' (Permutation_in _ (Permutation_sym Ph) Iu')).
      pose proof (Bt' t (Permutation_in _ Ph It)). pose proof (Bt' u (Permutation_in _ Ph Iu)). lra. }
  destruct (list_eq_dec Nat.eq_dec (map (fun _ => O) (holders ts x)) []) as [Ee|Ee].
  - assert (holders ts x = []) as E by (destruct (holders ts x); [auto|discriminate]).
    assert (holders ts' x = []) as E' by (rewrite E in Ph; now apply Permutation_nil).
    destruct (merged_nan bands ts idx k sh Nd Hm Hk arr diff model H x S E) as (-> & _ & ->).
    destruct (merged_nan bands ts' idx k sh Nd Hm' Hk arr' diff' model' H' x S E') as (-> & _ & ->).
    split; [exact I|]. split; [auto|]. intros; exact I.
  - assert (holders ts x <> []) as Ne by (intros E; rewrite E in Ee; now apply Ee).
    assert (holders ts' x <> []) as Ne' by (intros E; rewrite E in Ph; apply Ne; now apply Permutation_nil, Permutation_sym).
    destruct (exists_last Ne) as (l & t & El). destruct (exists_last Ne') as (l' & t' & El').
    destruct (merged_pixel bands ts idx k sh Nd Hm Hk arr diff model H x S l t El) as (m & v & -> & Am & -> & Av).
    destruct (merged_pixel bands ts' idx k sh Nd Hm' Hk arr' diff' model' H' x S l' t' El') as (m' & v' & -> & Am' & -> & Av').
    split; [cbn; now rewrite Am, Am'|]. split; [auto|]. intros Hcg Hnt. cbn. rewrite Av, Av', <- (wrap_around_comp _ _ _ _ Pa (Qeq_refl (raw_at t' k x))).
    assert (In t (holders ts x)) as It by (rewrite El; apply in_or_app; right; now left).
    assert (In t' (holders ts x)) as It' by (apply (Permutation_in _ (Permutation_sym Ph)); rewrite El'; apply in_or_app; right; now left).
    apply wrap_around_congruent; auto.
Qed.

(** Exactly half a cycle from the average, the tile written last decides. This is
    where an adjusted overlap ends up when two tiles differ by one cycle: both
    carry the average, half a cycle from either raw phase. *)
Definition C42_tile (raw : Q) : tile :=
  Tile (TileFile [(0, 0)%Z] (BBox 0 0 1 1) [[raw]] [0]) [O] [[raw]] [[[twopi / 2 - raw]]] 1.
Theorem C42_tie_refuted :
  ~ (forall bands k idx ts ts' sh arr diff model arr' diff' model' x,
     NoDup bands -> (forall t, In t ts -> mergeable bands t) -> nth_error bands k = Some idx -> Permutation ts ts' ->
     merged_band ts idx sh = Ok (arr, diff, model) -> merged_band ts' idx sh = Ok (arr', diff', model') ->
     in_shape sh x = true ->
     (forall t t', In t (holders ts x) -> In t' (holders ts x) -> congruent (raw_at t k x) (raw_at t' k x)) ->
     agree (length bands) ts -> same_value (pixel arr x) (pixel arr' x)).
Proof.
  intros H.
  destruct (merged_band [C42_tile 0; C42_tile twopi] 0 (1, 1)%Z) as [[[a d] m]|] eqn:E; [|vm_compute in E; discriminate].
  destruct (merged_band [C42_tile twopi; C42_tile 0] 0 (1, 1)%Z) as [[[a' d'] m']|] eqn:E'; [|vm_compute in E'; discriminate].
  assert (forall t, In t [C42_tile 0; C42_tile twopi] -> mergeable [O] t) as Hm.
  { intros t [<-|[<-|[]]]; (split; [split; [split|]|split; [|split]]; try reflexivity; [intros r [<-|[]]; reflexivity| |repeat constructor; intros []]);
      intros c [<-|[]]; (split; [reflexivity|]); intros r [<-|[]]; reflexivity. }
  specialize (H [O] O O [C42_tile 0; C42_tile twopi] [C42_tile twopi; C42_tile 0] (1, 1)%Z a d m a' d' m' (0, 0)%Z
    ltac:(repeat constructor; intros []) Hm eq_refl (perm_swap _ _ _) E E' eq_refl).
  assert (same_value (pixel a (0, 0)%Z) (pixel a' (0, 0)%Z)) as K.
  { apply H; [|intros b x t t' Hb I I'; apply filter_In in I as [I C], I' as [I' C'];
                 apply contains_spec in C as ([|p] & C); [|destruct I as [<-|[<-|[]]]; destruct p; discriminate];
                 assert (x = (0, 0)%Z) as -> by (destruct I as [<-|[<-|[]]]; vm_compute in C; now injection C as <-);
                 assert (b = O) as -> by (cbn in Hb; lia);
                 destruct I as [<-|[<-|[]]], I' as [<-|[<-|[]]]; vm_compute; reflexivity].
    intros t t' I I'. apply filter_In in I as [I _], I' as [I' _].
    destruct I as [<-|[<-|[]]], I' as [<-|[<-|[]]]; [exists 0%Z|exists (-1)%Z|exists 1%Z|exists 0%Z]; unfold raw_at; cbn; change (inject_Z 0) with 0; ring. }
  vm_compute in E. injection E as <- <- <-. vm_compute in E'. injection E' as <- <- <-. vm_compute in K. discriminate.
Qed.

(** * One batch from the tile files to the rasters (C39, C41) *)
Lemma kept_idx_mergeable idx ts ts' : all_kept ts ts' -> (forall t, In t ts -> t_idx t = idx) ->
  (forall t, In t ts' -> ready (length idx) t) -> forall t, In t ts' -> mergeable idx t.
Proof.
  intros [L K] Hi Hr t I. pose proof (Hr t I) as (T & E & Lv & _ & N). split; [auto|]. split; [|auto].
  apply (In_nth _ _ dtile) in I as (i & B & <-). destruct (K i) as (_ & -> & _). apply Hi, nth_In. lia.
Qed.

(** Files [fs] that contain pixel [x], as (tile, point). *)
Definition found (files : list tile_file) (x : Z * Z) (j p : nat) : Prop :=
  exists f, nth_error files j = Some f /\ nth_error (file_coords f) p = Some x.

Section BatchOut.
Variables (cg : list (list Q) -> list Q -> list Q) (ilu : list (list Q) -> bool)
          (triangles : list (Z * Z) -> res (list (nat * nat * nat)))
          (f : overlap_file) (omap : list (list nat)) (m : nat) (bulk : list (list Q)) (sh : Z * Z) (files : list tile_file)
          (idx : list nat) (outs : list (raster * raster * raster)).
Hypotheses (Hfiles : forall fl, In fl files -> file_ok fl /\ NoDup (tf_points fl)) (Hne : files <> [])
           (Hom : overlap_map f = Ok omap) (Hrec : recorded_files f files)
           (Hout : merge_batch cg ilu triangles f omap m bulk sh files idx = Ok outs).

(** Every band of a batch: rasters of the right shape; NaN where no tile file has
    the pixel; elsewhere whole cycles from the phase in one of the tile files and
    at most half a cycle from the model; the
    difference is defined where several tiles meet, and zero if all pairs of tiles
    with common pixels are recorded. *)
Theorem C41_batch k arr diff model x : nth_error outs k = Some (arr, diff, model) -> in_shape sh x = true ->
  raster_shape arr sh /\ raster_shape diff sh /\ raster_shape model sh /\
  ((forall j p, ~ found files x j p) -> pixel arr x = None /\ pixel diff x = None /\ pixel model x = None) /\
  ((exists j p, found files x j p) -> exists v w, pixel arr x = Some v /\ pixel model x = Some w /\
     - (twopi / 2) <= v - w <= twopi / 2 /\
     exists j p, found files x j p /\ congruent v (phase_of (nth j files dfile) (nth k idx O) p)) /\
  (complete_files f files -> (2 <= m)%nat \/ (length files < 256)%nat /\ get_max_degree (map file_coords files) sh = Ok m ->
     forall d, pixel diff x = Some d -> d == 0) /\
  ((exists d, pixel diff x = Some d) <-> exists i j p q, (i < j)%nat /\ found files x i p /\ found files x j q).
Proof.
  intros Ek S. pose proof (batch_bands cg ilu triangles f omap m bulk sh files Hfiles Hrec idx outs Hne Hout) as Nd.
  assert (k < length idx)%nat as Bk.
  { assert (k < length outs)%nat as Bo by (apply nth_error_Some; congruence). destruct (batch_alone cg ilu triangles f omap m bulk sh files Hfiles Hom Hrec idx outs O Hne Hout) as [L _].
    - destruct idx as [|i l]; [|cbn; lia]. exfalso. unfold merge_batch in Hout. destruct (start_tiles files bulk []) as [ts|] eqn:E; [|discriminate].
      apply (started bulk files Hfiles) in E as (_ & _ & K). destruct files as [|fl l]; [contradiction|]. specialize (K O ltac:(cbn; lia)).
      cbn in K. unfold start_tile in K. cbn in K. discriminate.
    - lia. }
  unfold merge_batch in Hout. destruct (start_tiles files bulk idx) as [ts|] eqn:Es; [|discriminate]. cbn [bind] in Hout.
  destruct (adjust_tiles _ _ _ f omap m ts) as [ts'|] eqn:Ea; [|discriminate]. cbn [bind] in Hout.
  pose proof Es as E0. apply (started bulk files Hfiles) in E0 as (F & R & K0).
  assert (recorded f ts) as Hd by now apply Hrec. assert (length ts = length files) as Lt by (rewrite <- F; now rewrite map_length).
  assert (forall t, In t ts -> ready (length idx) t) as Hr by (intros t I; apply R, I).
  assert (complete_files f files -> (2 <= m)%nat \/ (length files < 256)%nat /\ get_max_degree (map file_coords files) sh = Ok m ->
    agree (length idx) ts') as Ag.
  { intros Hcp Hm. assert (describes f ts) as Hdd by (split; [auto|now apply Hcp]). destruct Hm as [H2|[H2 H3]].
    - eapply C39_agree_partial; eauto.
    - eapply C39_agree_small_partial; eauto; [lia|]. rewrite <- H3. f_equal. rewrite <- F, map_map. reflexivity. }
  pose proof Ea as Ea'. unfold adjust_tiles in Ea'. apply (adjust_kept cg ilu triangles f (length idx)) in Ea' as (Kp & Hr'); auto.
  pose proof (kept_idx_mergeable idx ts ts' Kp (fun t I => proj2 (R t I)) Hr') as Mg.
  apply map_res_nth in Hout as [Lo Ho]. specialize (Ho k O (arr, diff, model) Bk).
  rewrite (nth_error_nth _ _ _ Ek) in Ho.
  destruct (C41_merged idx k _ ts' sh arr diff model x Nd Mg (nth_error_nth' idx O Bk) Ho S) as (S1 & S2 & S3 & (N1 & N2) & V & W).
  destruct (C41_diff idx k _ ts' sh arr diff model x Nd Mg (nth_error_nth' idx O Bk) Ho S) as (D1 & D2).
  assert (forall j, (j < length files)%nat -> coords (nth j ts' dtile) = file_coords (nth j files dfile)) as Cj.
  { intros j Bj. destruct Kp as [_ Kj]. rewrite (kept_coords _ _ (Kj j)). unfold coords. f_equal. rewrite <- F. symmetry. apply map_nth'. lia. }
  destruct Kp as [Lk Kj]. pose proof (holders_index ts' x) as Hx.
  assert (forall j, (j < length files)%nat -> (contains (nth j ts' dtile) x = true <-> exists p, found files x j p)) as Cf.
  { intros j Bj. unfold found. rewrite (nth_error_nth' files dfile Bj). split.
    - intros C. apply contains_spec in C as (p & P). unfold point_of in P. rewrite Cj in P by auto. exists p. eauto.
    - intros (p & fl & E & P). injection E as <-. apply contains_spec. exists p. unfold point_of. now rewrite Cj. }
  assert (forall j p, found files x j p -> (j < length files)%nat) as Bf.
  { intros j p (fl & E & _). apply nth_error_Some. congruence. }
  split; [auto|]. split; [auto|]. split; [auto|]. split; [|split; [|split]].
  - intros N. assert (holders ts' x = []) as E.
    { rewrite Hx. destruct (filter _ _) as [|j l] eqn:Ef; [auto|]. exfalso. assert (In j (j :: l)) as I by now left. rewrite <- Ef in I.
      apply filter_In in I as [I C]. apply in_seq in I. apply Cf in C as (p & P); [|lia]. now apply (N j p). }
    split; [now apply N1|]. split; [apply D1; rewrite E; cbn; lia|now apply N2].
  - intros (j & p & P). assert (holders ts' x <> []) as Ne.
    { intros E. assert (In (nth j ts' dtile) (holders ts' x)) as I; [|rewrite E in I; destruct I].
      pose proof (Bf _ _ P). apply filter_In. split; [apply nth_In; lia|]. apply Cf; eauto. }
    destruct (pixel arr x) as [v|] eqn:Ev; [|exfalso; apply Ne; now apply N1]. destruct (pixel model x) as [w|] eqn:Ew; [|exfalso; apply Ne; now apply N2].
    exists v, w. split; [auto|]. split; [auto|]. destruct (V v eq_refl) as (t & I & C & B). pose proof (W w eq_refl) as Aw.
    split; [lra|]. apply filter_In in I as [I Ct]. apply (In_nth _ _ dtile) in I as (i & Bi & <-). rewrite Lk, Lt in Bi.
    pose proof Ct as Ct'. apply contains_spec in Ct' as (q & Q). exists i, q.
    assert (found files x i q) as Fq by (exists (nth i files dfile); split; [now apply nth_error_nth'|]; unfold point_of in Q; now rewrite Cj in Q).
    split; [auto|]. unfold raw_at in C. destruct (Hr' (nth i ts' dtile) ltac:(apply nth_In; lia)) as (_ & _ & _ & _ & Nc).
    rewrite (position_spec _ _ _ Nc Q) in C. destruct (Kj i) as (_ & _ & Er). rewrite Er in C.
    destruct (Hfiles (nth i files dfile)) as [Fo Np]; [now apply nth_In|].
    destruct (start_ok _ i bulk Fo idx _ (K0 i Bi) Np) as (_ & _ & _ & St). unfold phase_of.
    assert (q < length (tf_points (nth i files dfile)))%nat as Bq.
    { pose proof (point_lt _ _ _ Q) as Pl. unfold npoints in Pl. rewrite Cj in Pl by auto. unfold file_coords in Pl. now rewrite map_length in Pl. }
    destruct (St k q Bk Bq) as [Er' _]. cbn zeta in Er'. destruct C as [z Cz]. exists z. now rewrite <- Er'.
  - intros Hcp Hm d Ed. destruct (Nat.lt_ge_cases (length (holders ts' x)) 2) as [B|B]; [now rewrite D1 in Ed|].
    destruct (D2 B) as (t & t' & It & It' & Ed' & _). rewrite Ed' in Ed. injection Ed as <-. rewrite (Ag Hcp Hm k x t t' Bk It It'). ring.
  - assert ((2 <= length (holders ts' x))%nat <-> exists i j p q, (i < j)%nat /\ found files x i p /\ found files x j q) as E2.
    { rewrite Hx, map_length, Lk, Lt. split.
      - destruct (filter (fun j => contains (nth j ts' dtile) x) (seq 0 (length files))) as [|i [|j l]] eqn:Ef; cbn [length]; [lia|lia|intros _].
        assert (In i (i :: j :: l) /\ In j (i :: j :: l)) as [I J] by (cbn; auto). rewrite <- Ef in I, J.
        apply filter_In in I as [I Ci], J as [J Cj']. apply in_seq in I, J. apply Cf in Ci as (p & P); [|lia]. apply Cf in Cj' as (q & Q); [|lia].
        assert (i <> j) as Nij.
        { intros ->. assert (NoDup (j :: j :: l)) as N by (rewrite <- Ef; apply NoDup_filter, seq_NoDup). apply NoDup_cons_iff in N as [N _]. apply N. now left. }
        destruct (Nat.lt_ge_cases i j); [exists i, j, p, q; auto|]. exists j, i, q, p. split; [lia|auto].
      - intros (i & j & p & q & Bij & P & Q). pose proof (Bf _ _ P). pose proof (Bf _ _ Q).
        assert (length [i; j] <= length (filter (fun j => contains (nth j ts' dtile) x) (seq 0 (length files))))%nat as Le; [|exact Le].
        apply NoDup_incl_length; [constructor; [intros [<-|[]]; lia|constructor; [intros []|constructor]]|]. intros u [<-|[<-|[]]]; apply filter_In; (split; [apply in_seq; lia|apply Cf; eauto]). }
    rewrite <- E2. split.
    + intros [d Ed]. destruct (Nat.lt_ge_cases (length (holders ts' x)) 2) as [B|B]; [|auto]. now rewrite D1 in Ed.
    + intros B. destruct (D2 B) as (t & t' & _ & _ & -> & _). eauto.
Qed.
End BatchOut.

(** * Cases *)
Definition ex_points : list (Z * Z) := flat_map (fun r => map (fun c => (r, Z.of_nat c)) (seq 0 12)) [0; 1]%Z.
Definition ex_files : list tile_file :=
  [TileFile ex_points (BBox 0 0 2 12) [repeat 0 24; map (fun x => inject_Z (snd x) / 8) ex_points] [0; 0];
   TileFile ex_points (BBox 1 0 3 12) [repeat 0 6 ++ repeat twopi 6 ++ repeat (1 # 8) 12; map (fun x => inject_Z (snd x) / 8) ex_points] [twopi; 0]].
Definition ex_set : tileset := TileSet (3, 12)%Z [BBox 0 0 2 12; BBox 1 0 3 12].
Definition ex_comps (n : nat) (e : list (nat * nat)) : list nat := repeat O n.
Definition ex_overlaps : overlap_file :=
  OFile [OGroup (0, 1)%nat (seq 12 12) (seq 0 12) [repeat 1%Z 6 ++ repeat 2%Z 5; repeat 0%Z 11]] [0; 0]%nat [(0, 1)%nat].
Definition ex_triangles (p : list (Z * Z)) : res (list (nat * nat * nat)) :=
  Ok (flat_map (fun c => [(c, c + 1, 12 + c); (c + 1, 12 + c, 13 + c)]%nat) (seq 0 11)).
Definition ex_cg (a : list (list Q)) (b : list Q) : list Q := map (fun _ => 1 # 3) b.
Definition ex_bulk : list (list Q) := [[0; 1]; [0; 0]].

Example computed_witness : compute_phasediff_deciles ex_comps 11 ex_files ex_set = Ok ex_overlaps.
Proof. vm_compute. reflexivity. Qed.
Lemma ex_file_ok fl : In fl ex_files -> file_ok fl /\ NoDup (tf_points fl).
Proof.
  intros I. split.
  - destruct I as [<-|[<-|[]]]; intros r [<-|[<-|[]]]; reflexivity.
  - assert (tf_points fl = ex_points) as -> by (destruct I as [<-|[<-|[]]]; reflexivity).
    apply (NoDup_count_occ' (fun a b : Z * Z => ltac:(repeat decide equality))). intros x I'. cbn in I'.
    repeat (destruct I' as [<-|I']; [vm_compute; reflexivity|]). destruct I'.
Qed.
Lemma ex_described : describes_files ex_overlaps ex_files.
Proof.
  apply (computed_describes ex_comps 11 ex_files ex_set ex_overlaps 3 12).
  - exact computed_witness.
  - intros n e. apply repeat_length.
  - reflexivity.
  - intros [|[|n]] B; [reflexivity|reflexivity|cbn in B; lia].
  - intros fl I. now apply ex_file_ok.
  - intros fl [<-|[<-|[]]] r c I; cbn in I; repeat (destruct I as [I|I]; [injection I as <- <-; lia|]); destruct I.
  - lia.
  - intros [|[|n]] x B I; [| |cbn in B; lia]; cbn in I; repeat (destruct I as [<-|I]; [unfold has_pixel; cbn; lia|]); destruct I.
  - intros i j B _. assert (i = 0 /\ j = 1)%nat as [-> ->] by (cbn in B; lia). vm_compute. discriminate.
Qed.
Lemma ex_omap : overlap_map ex_overlaps = Ok [[1]; [0]]%nat.
Proof. reflexivity. Qed.
Lemma ex_degree : get_max_degree (map file_coords ex_files) (3, 12)%Z = Ok 2%nat.
Proof. vm_compute. reflexivity. Qed.

(** The hypotheses of the theorems on the adjustment hold for the start of this
    batch, and the adjustment succeeds and moves phases. *)
Example C39_witness : exists ts ts', start_tiles ex_files ex_bulk [0; 1]%nat = Ok ts /\ map t_file ts = ex_files /\
  describes ex_overlaps ts /\ (forall t, In t ts -> ready 2 t) /\
  adjust_tiles ex_cg (fun _ => true) ex_triangles ex_overlaps [[1]; [0]]%nat 2 ts = Ok ts' /\
  ~ agree 2 ts /\ agree 2 ts' /\
  (forall t, In t ts -> exists lap, tile_laplacian ex_triangles t = Ok lap /\ is_square lap = true /\ length lap = npoints t).
Proof.
  destruct (start_tiles ex_files ex_bulk [0; 1]%nat) as [ts|] eqn:E; [|vm_compute in E; discriminate]. exists ts.
  pose proof E as E0. apply (started ex_bulk ex_files ex_file_ok) in E0 as (F & R & _). pose proof (ex_described ts F) as Hd.
  assert (forall t, In t ts -> ready 2 t) as Hr by (intros t I; apply R, I).
  assert (forall t, In t ts -> exists lap, tile_laplacian ex_triangles t = Ok lap /\ is_square lap = true /\ length lap = npoints t) as Hl.
  { intros t I. apply (in_map t_file) in I. rewrite F in I.
    assert (npoints t = 24%nat /\ exists lap, tile_laplacian ex_triangles t = Ok lap /\ is_square lap = true /\ length lap = 24%nat) as [-> L]; [|exact L].
    destruct t as [fl ti tr tc tv]. cbn [t_file] in I. destruct I as [<-|[<-|[]]]; (split; [reflexivity|]); eexists; (split; [vm_compute; reflexivity|]); split; reflexivity. }
  destruct (C39_total ex_cg (fun _ => true) ex_triangles ex_overlaps _ 2 ts 2 (proj1 Hd) Hr ex_omap Hl ltac:(reflexivity) (or_introl eq_refl)) as (ts' & E').
  exists ts'. split; [auto|]. split; [auto|]. split; [auto|]. split; [auto|]. split; [auto|]. split; [|split; [|auto]].
  - intros A. vm_compute in E. injection E as <-.
    match goal with A : agree 2 [?a; ?b] |- _ => specialize (A O (1, 7)%Z a b) end.
    match type of A with _ -> _ -> _ -> ?X => assert X as K end.
    { apply A; [lia| |]; vm_compute; auto. }
    vm_compute in K. discriminate.
  - apply (C39_agree_partial ex_cg (fun _ => true) ex_triangles ex_overlaps [[1]; [0]]%nat 2 ts 2 ts'); auto.
Qed.
Example C40_witness : exists ts ts', start_tiles ex_files ex_bulk [0; 1]%nat = Ok ts /\
  adjust_pass ex_cg (fun _ => true) ex_triangles [1; 0]%nat ex_overlaps [[1]; [0]]%nat ts 2 = Ok ts' /\
  adjust_pass ex_cg (fun _ => true) ex_triangles [0; 1]%nat ex_overlaps [[1]; [0]]%nat ts 2 = Ok ts'.
Proof. eexists. eexists. split; [vm_compute; reflexivity|]. split; vm_compute; reflexivity. Qed.

(** Row 1 is shared: half a cycle is the average of the corrected phases, 0 and a
    whole cycle. *)
Example C41_witness : exists outs arr diff model,
  merge_batch ex_cg (fun _ => true) ex_triangles ex_overlaps [[1]; [0]]%nat 2 ex_bulk (4, 12)%Z ex_files [0; 1]%nat = Ok outs /\
  nth_error outs 0 = Some (arr, diff, model) /\
  option_map Qred (pixel model (1, 7)%Z) = Some (Qred (twopi / 2)) /\ option_map Qred (pixel diff (1, 7)%Z) = Some 0 /\
  option_map Qred (pixel arr (1, 7)%Z) = Some 0 /\ pixel arr (3, 5)%Z = None /\
  (exists v, pixel model (2, 5)%Z = Some v /\ ~ v == 1 # 8).
Proof.
  eexists. eexists. eexists. eexists. split; [vm_compute; reflexivity|]. split; [reflexivity|].
  split; [vm_compute; reflexivity|]. split; [vm_compute; reflexivity|]. split; [vm_compute; reflexivity|]. split; [vm_compute; reflexivity|].
  eexists. split; [vm_compute; reflexivity|]. vm_compute. discriminate.
Qed.
Example C41_single_witness : exists r, single_band (nth 1 ex_files dfile) 0 (4, 12)%Z = Ok r /\
  pixel r (0, 0)%Z = None /\ option_map Qred (pixel r (2, 3)%Z) = Some (Qred (twopi + (1 # 8))).
Proof. eexists. split; [vm_compute; reflexivity|]. split; vm_compute; reflexivity. Qed.

(** Two tiles with raw phases a whole cycle apart, corrected to the same phase. *)
Example C42_witness :
  let t1 := Tile (TileFile [(0, 0)%Z] (BBox 0 0 1 1) [[1]] [0]) [O] [[1]] [[[0]]] 1 in
  let t2 := Tile (TileFile [(0, 0)%Z] (BBox 0 0 1 1) [[1 + twopi]] [0]) [O] [[1 + twopi]] [[[- twopi]]] 1 in
  exists r r', merged_band [t1; t2] 0 (1, 1)%Z = Ok r /\ merged_band [t2; t1] 0 (1, 1)%Z = Ok r' /\
    option_map Qred (pixel (fst (fst r)) (0, 0)%Z) = Some 1 /\ option_map Qred (pixel (fst (fst r')) (0, 0)%Z) = Some 1.
Proof. cbv zeta. eexists. eexists. split; [vm_compute; reflexivity|]. split; [vm_compute; reflexivity|]. split; vm_compute; reflexivity. Qed.

Print Assumptions C37_phase.
Print Assumptions C37_add_partial.
Print Assumptions C37_add_refuted.
Print Assumptions C37_add_usable.
Print Assumptions C37_increment.
Print Assumptions C37_compress.
Print Assumptions C37_compress_error.
Print Assumptions C37_reset.
Print Assumptions C37_reset_band_index.
Print Assumptions C37_history.
Print Assumptions C37_merge_history.
Print Assumptions C39_agree_partial.
Print Assumptions C39_agree_small_partial.
Print Assumptions C39_count_refuted.
Print Assumptions C39_fixed.
Print Assumptions C39_pass.
Print Assumptions C39_total.
Print Assumptions C40_order.
Print Assumptions C40_all_passes.
Print Assumptions C41_merged.
Print Assumptions C41_diff.
Print Assumptions C41_total.
Print Assumptions C41_single.
Print Assumptions C41_batch.
Print Assumptions C42_order_partial.
Print Assumptions C42_tie_refuted.
