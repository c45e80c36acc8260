(** Stored values are numbers of the format they are stored in. *)
From Verif Require Import Base BaseLemmas GraphModel McfModel EmcfModel PoolProofs TileModel SlcModel OverlapModel DirichletModel BulkModel MergeModel
  UnwrapTileModel FloatMcfModel FloatCubeModel FloatTileModel FloatMergeModel FloatMergeProofs FloatRunModel.
From Coq Require Import ZifyBool.
Set Default Goal Selector "!".
Local Open Scope Q_scope.

Lemma upd_In {A} (l : list A) : forall i v x, In x (upd l i v) -> In x l \/ x = v.
Proof.
  induction l as [|a l IH]; intros [|i] v x H; cbn in *; auto.
  - destruct H as [->|H]; auto.
  - destruct H as [->|H]; auto. destruct (IH _ _ _ H); auto.
Qed.
Lemma set_rows_In {A} (rs : list (nat * A)) : forall init x, In x (set_rows init rs) -> In x init \/ In x (map snd rs).
Proof.
  unfold set_rows. induction rs as [|[i r] rs IH]; intros init x H; cbn in *; auto.
  destruct (IH _ _ H) as [K|K]; auto. destruct (upd_In _ _ _ _ K) as [J|J]; subst; auto.
Qed.
Lemma put_In {A} m : forall (vals base : list A) x, In x (put m vals base) -> In x vals \/ In x base.
Proof.
  induction m as [|b m IH]; intros vals base x H; cbn in H; [destruct base; cbn in H; auto|].
  destruct b; [destruct vals as [|v vals]|]; destruct base as [|y base]; cbn in H; auto; try contradiction.
  all: try (destruct H as [->|H]; [cbn; auto|]; destruct (IH _ _ _ H); cbn; auto).
Qed.
Lemma map_res_In {A B} (f : A -> res B) l : forall ys y, map_res f l = Ok ys -> In y ys -> exists a, In a l /\ f a = Ok y.
Proof.
  induction l as [|a l IH]; intros ys y E H; cbn in E.
  - injection E as <-. contradiction.
  - destruct (f a) as [b|] eqn:F; [|discriminate]. destruct (map_res f l) as [bs|] eqn:G; [|discriminate].
    injection E as <-. destruct H as [->|H]; [exists a; cbn; auto|].
    destruct (IH bs y eq_refl H) as (c & C & D). exists c. cbn; auto.
Qed.
Lemma scatter_some (P : Q -> Prop) ps : forall vals (img : image (option Q)),
  (forall p x, img p = Some x -> P x) -> (forall x, In (Some x) vals -> P x) ->
  forall p x, scatter img ps vals p = Some x -> P x.
Proof.
  unfold scatter. induction ps as [|a ps IH]; intros vals img Hi Hv p x E; cbn in E; [eauto|].
  destruct vals as [|v vals]; cbn in E; [eauto|]. apply (IH vals (set_pixel img a v)) with (p := p); auto.
  - intros q y. unfold set_pixel. destruct (point_eqb q a); [|eauto]. intros ->. apply Hv. cbn; auto.
  - intros y Hy. apply Hv. cbn; auto.
Qed.
Lemma tabulate_some (P : Q -> Prop) sh (img : image (option Q)) : (forall p x, img p = Some x -> P x) ->
  forall l x, In l (tabulate sh img) -> In (Some x) l -> P x.
Proof.
  intros H l x A B. unfold tabulate in A. apply in_map_iff in A as (ps & <- & _). apply in_map_iff in B as (q & E & _). eauto.
Qed.

Section Cube.
Variables (P : Q -> Prop) (F : formats) (smcf : list arc -> list Z -> option (list Z)).
Hypotheses (P0 : P 0) (Ps : forall x, P (f_s F x)).

Lemma column_stored is_ifg ifgs data l x : In x (link_column_fl F is_ifg ifgs data l) -> P x.
Proof.
  unfold link_column_fl. destruct l as [a b], is_ifg; intros H; apply in_map_iff in H as (? & <- & _); apply Ps.
Qed.

Lemma space_stored sched cpu e grad U : unwrap_gradients_in_space_fl F smcf sched cpu e grad = Ok U ->
  forall row x, In row U -> In x row -> P x.
Proof.
  unfold unwrap_gradients_in_space_fl. destruct (pick_cost _ _ _ _) as [cost|]; [|discriminate].
  unfold bind at 1. destruct (_ <=? 0)%Z; [discriminate|].
  destruct (map_res _ _) as [rs|] eqn:E; [|discriminate]. cbn [bind]. intros H row x A B. injection H as <-.
  destruct (set_rows_In _ _ _ A) as [C|C].
  - apply repeat_spec in C. subst row. apply repeat_spec in B. now subst x.
  - apply in_map_iff in C as ([i d] & <- & C). destruct (map_res_In _ _ _ _ E C) as (j & _ & D).
    destruct (unwrap_ifg_in_space_fl _ _ _ _ _ _ _) as [d'|]; [|discriminate]. cbn [bind] in D. injection D as <- <-.
    cbn in B. apply in_map_iff in B as (? & <- & _). apply Ps.
Qed.

Lemma cube_stored tsched ssched cpu e c U : unwrap_cube_fl F smcf tsched ssched cpu e c = Ok U ->
  forall row x, In row U -> In x row -> P x.
Proof.
  unfold unwrap_cube_fl. destruct (classify e c); [|discriminate]. cbn [bind].
  destruct (unwrap_gradients_in_time_fl _ _ _ _ _ _ _) as [G|]; [|discriminate]. cbn [bind]. apply space_stored.
Qed.

Hypothesis Pc : forall a b, P (a_c F a b).
Lemma batch_stored sched cpu e cost is_ifg data bb grad G : (forall col x, In col grad -> In x col -> P x) ->
  time_batch_fl F smcf sched cpu e cost is_ifg data bb grad = Ok G -> forall col x, In col G -> In x col -> P x.
Proof.
  intros Hg. unfold time_batch_fl. destruct (_ - _ =? 0)%nat; [intros H; injection H as <-; exact Hg|].
  destruct (negb _); [discriminate|]. destruct (residues_to_flows_many _ _ _ _ _ _ _ _) as [fl|]; [|discriminate].
  cbn [bind]. intros H col x A B. injection H as <-. unfold set_slice in A. rewrite !in_app_iff in A.
  destruct A as [A|[A|A]].
  - apply (Hg col); auto. rewrite <- (firstn_skipn (bb * links_per_batch (em_set e)) grad). apply in_or_app. now left.
  - apply in_map_iff in A as (cf & <- & _). apply in_map_iff in B as (vk & <- & _). apply Pc.
  - apply (Hg col); auto. match type of A with In _ (skipn ?k grad) => rewrite <- (firstn_skipn k grad) end. apply in_or_app. now right.
Qed.
Lemma batches_stored sched cpu e cost is_ifg data bbs : forall grad G, (forall col x, In col grad -> In x col -> P x) ->
  time_batches_fl F smcf sched cpu e cost is_ifg data bbs grad = Ok G -> forall col x, In col G -> In x col -> P x.
Proof.
  induction bbs as [|b bbs IH]; intros grad G Hg E; cbn in E; [injection E as <-; exact Hg|].
  destruct (time_batch_fl _ _ _ _ _ _ _ _ _ _) as [g|] eqn:Eb; [|discriminate]. cbn [bind] in E.
  apply (IH g G); [|exact E]. exact (batch_stored _ _ _ _ _ _ _ _ _ Hg Eb).
Qed.
Lemma time_stored sched cpu e is_ifg data G : unwrap_gradients_in_time_fl F smcf sched cpu e is_ifg data = Ok G ->
  forall col x, In col G -> In x col -> P x.
Proof.
  unfold unwrap_gradients_in_time_fl. destruct (pick_cost _ _ _ _) as [cost|]; [|discriminate]. cbn [bind].
  apply batches_stored. intros col x A B. apply repeat_spec in A. subst col. apply repeat_spec in B. now subst x.
Qed.

Lemma tile_stored triangles tsched ssched cpu set tdist tcent sdist scent st gt b f :
  unwrap_one_tile_fl F smcf triangles tsched ssched cpu set tdist tcent sdist scent st gt b = Ok f ->
  (forall row x, In row (tf_uw f) -> In x row -> P x) /\ (forall x, In x (tf_offset f) -> P x).
Proof.
  unfold unwrap_one_tile_fl. cbv zeta.
  destruct (make_solver gt) as [s|]; [|discriminate]. unfold bind at 1.
  destruct (triangles _) as [tri|]; [|discriminate]. unfold bind at 1.
  destruct (make_solver _) as [ss|]; [|discriminate]. unfold bind at 1.
  destruct (SlcModel.read_tile _ _ _) as [w|]; [|discriminate]. unfold bind at 1.
  destruct (negb _); [discriminate|]. destruct (unwrap_cube_fl _ _ _ _ _ _ _) as [uw|] eqn:E; [|discriminate].
  unfold bind. intros H. injection H as <-. cbn [tf_uw tf_offset]. split.
  - exact (cube_stored _ _ _ _ _ _ E).
  - intros x Hx. apply in_map_iff in Hx as (ij & <- & _). apply Ps.
Qed.
End Cube.

Section Merge.
Variables (P : Q -> Prop) (fl fd fc : Q -> Q) (solve : list (Z * Z) -> list bool -> list Q -> res (list Q)).
Hypothesis Pl : forall x, P (fl x).

Definition stored (t : ftile) : Prop := (forall x, In x (ft_raw t) -> P x) /\ (forall x, In x (ft_corr t) -> P x).

Lemma loaded_stored f b row x : In row (snd (load_uw_tile_fl fl f b)) -> In x row -> P x.
Proof. cbn. intros A B. apply in_map_iff in A as (ru & <- & _). apply in_map_iff in B as (y & <- & _). apply Pl. Qed.

Lemma start_stored files bulk b ts : start_tiles_fl fl fd files bulk b = Ok ts -> forall t, In t ts -> stored t.
Proof.
  unfold start_tiles_fl. intros E t H. destruct (map_res_In _ _ _ _ E H) as (jf & _ & D). unfold start_tile_fl in D.
  destruct (negb _); [discriminate|]. destruct (negb _); [discriminate|]. injection D as <-. split; cbn [ft_raw ft_corr]; intros x Hx.
  - apply in_map_iff in Hx as (y & <- & _). apply Pl.
  - apply repeat_spec in Hx. subst x. apply Pl.
Qed.

Lemma add_fl_stored a b x : In x (add_fl fl a b) -> P x.
Proof. intros H. apply in_map_iff in H as (y & <- & _). apply Pl. Qed.

(** What is added to the corrections, too. *)
Lemma dirichlet_stored t mask xf y : (forall x, In x xf -> P x) -> dirichlet_fl fl solve t mask xf = Ok y -> forall x, In x y -> P x.
Proof.
  unfold dirichlet_fl. destruct (solve _ _ _) as [v|]; [|discriminate]. cbn [bind]. intros H E.
  destruct (negb _); [discriminate|]. injection E as <-. intros x Hx. destruct (put_In _ _ _ _ Hx) as [K|K]; auto.
  apply in_map_iff in K as (z & <- & _). apply Pl.
Qed.

Lemma adjust_stored f omap d ts ii t : (forall t, In t ts -> stored t) -> adjust_tile_fl fl solve f omap d ts ii = Ok t -> stored t.
Proof.
  intros H. unfold adjust_tile_fl. destruct (nth_error ts ii) as [ti|] eqn:E; [|discriminate].
  apply nth_error_In in E. specialize (H ti E). destruct (nth_error omap ii) as [nb|]; [|discriminate].
  destruct (fold_res _ _ _) as [[c s]|]; [|discriminate]. cbn [bind].
  destruct (negb _); [intros K; injection K as <-; exact H|].
  destruct (dirichlet_fl _ _ _ _ _) as [corr|]; [|discriminate]. cbn [bind]. intros K. injection K as <-.
  split; cbn [ft_raw ft_corr]; [exact (proj1 H)|]. apply add_fl_stored.
Qed.
Lemma pass_stored f omap d ts ts' : (forall t, In t ts -> stored t) -> adjust_pass_fl fl solve f omap ts d = Ok ts' -> forall t, In t ts' -> stored t.
Proof.
  intros H E t Ht. destruct (map_res_In _ _ _ _ E Ht) as (i & _ & D). exact (adjust_stored _ _ _ _ _ _ H D).
Qed.
Lemma passes_stored f omap ds : forall ts ts', (forall t, In t ts -> stored t) -> fold_res (adjust_pass_fl fl solve f omap) ts ds = Ok ts' ->
  forall t, In t ts' -> stored t.
Proof.
  induction ds as [|d ds IH]; intros ts ts' H E; cbn in E; [injection E as <-; exact H|].
  destruct (adjust_pass_fl _ _ _ _ _ _) as [t1|] eqn:E1; [|discriminate]. cbn [bind] in E.
  apply (IH t1); [|exact E]. exact (pass_stored _ _ _ _ _ H E1).
Qed.

Lemma write_stored model t arr : (forall p x, arr p = Some x -> P x) -> forall p x, write_around_fl fl model arr t p = Some x -> P x.
Proof.
  intros H. unfold write_around_fl. apply scatter_some; [exact H|]. intros x Hx. apply in_map_iff in Hx as (pr & E & _).
  destruct (model (fst pr)) as [m|]; [|discriminate]. cbn in E. injection E as <-. apply Pl.
Qed.
Lemma merged_stored ts sh r : merged_band_fl fl ts sh = Ok r -> forall l x, In l r -> In (Some x) l -> P x.
Proof.
  unfold merged_band_fl. destruct (negb _); [discriminate|]. intros E. injection E as <-. apply tabulate_some.
  generalize (model_fl fl ts) as model. intros model.
  assert (forall p x, (fun _ : Z * Z => @None Q) p = Some x -> P x) as H by discriminate. revert H.
  generalize (fun _ : Z * Z => @None Q) as arr. induction ts as [|t ts IH]; intros arr H; cbn [fold_left]; [exact H|].
  apply IH. now apply write_stored.
Qed.
Lemma model_stored ts p x : model_fl fl ts p = Some x -> P x.
Proof. unfold model_fl. match goal with |- context [match ?k with O => _ | S _ => _ end] => destruct k end; [discriminate|]. intros E. injection E as <-. apply Pl. Qed.

Lemma merge_stored f omap d bulk sh files b r : merge_band_fl fl fd solve f omap d bulk sh files b = Ok r ->
  forall l x, In l r -> In (Some x) l -> P x.
Proof.
  unfold merge_band_fl. destruct (start_tiles_fl _ _ _ _ _); [|discriminate]. cbn [bind].
  destruct (adjust_tiles_fl _ _ _ _ _ _); [|discriminate]. cbn [bind]. apply merged_stored.
Qed.
Lemma single_stored f k sh r : single_band_fl fl f k sh = Ok r -> forall l x, In l r -> In (Some x) l -> P x.
Proof.
  unfold single_band_fl. destruct (negb _); [discriminate|]. destruct (negb _); [discriminate|]. intros E. injection E as <-.
  apply tabulate_some. apply scatter_some; [discriminate|]. intros x Hx. apply in_map_iff in Hx as (y & E & H). injection E as ->.
  apply in_map_iff in H as (z & <- & _). apply Pl.
Qed.
Lemma all_stored comps minp mip_solve lsq t mask files k r : merged_fl fl fd fc comps minp mip_solve lsq solve t mask files k = Ok r ->
  forall l x, In l r -> In (Some x) l -> P x.
Proof.
  unfold merged_fl. destruct (_ =? 1)%nat; [apply single_stored|].
  destruct (compute_phasediff_deciles_fl _ _ _ _ _ _); [|discriminate]. cbn [bind].
  destruct (get_bulk_offsets _ _ _ _ _ _); [|discriminate]. cbn [bind].
  destruct (overlap_map _); [|discriminate]. cbn [bind]. destruct (get_max_degree _ _); [|discriminate]. cbn [bind].
  apply merge_stored.
Qed.
End Merge.
