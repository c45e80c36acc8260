(** The unwrapping functions depend on their input only through the wrapped
    differences along links. *)
From Verif Require Import Base BaseLemmas GraphModel GraphSpec GraphProofs McfModel McfSpec
  PhaseProofs DualProofs ResidueProofs FlowProofs FloodProofs UnwrapProofs EmcfModel EmcfSpec PoolProofs BatchProofs EmcfProofs InvariantSpec.
From Coq Require Import ZifyBool.
Set Default Goal Selector "!".
Local Open Scope Q_scope.

(** * phase_diff *)
Lemma pd_strict p0 p1 m : ~ tie p0 p1 m -> - half < phase_diff p0 p1 m - m < half.
Proof.
  intros T. pose proof (pd_near p0 p1 m) as [L U].
  pose proof (pd_eq p0 p1 m) as E.
  split; apply Qnot_le_lt; intros K; apply T.
  - exists (pd_cycles p0 p1 m - 1)%Z. unfold half in *. unfold Z.sub. rewrite inject_Z_plus. change (inject_Z (- (1))) with (- (1)). lra.
  - exists (pd_cycles p0 p1 m)%Z. unfold half in *. lra.
Qed.

Lemma pd_same p0 p1 q0 q1 : cong2pi (q1 - q0) (p1 - p0) -> ~ tie p0 p1 0 ->
  phase_diff q0 q1 0 == phase_diff p0 p1 0.
Proof.
  intros C T. apply pd_unique; [|now apply pd_strict].
  eapply cong2pi_trans; [apply pd_cong|]. now apply cong2pi_sym.
Qed.

Lemma tie_cong p0 p1 q0 q1 : cong2pi (q1 - q0) (p1 - p0) -> tie q0 q1 0 -> tie p0 p1 0.
Proof.
  intros [k K] [j J]. exists (j - k)%Z. unfold Z.sub. rewrite inject_Z_plus, inject_Z_opp. lra.
Qed.

(** * Lists of equal numbers *)
Notation "x ~~ y" := (Forall2 Qeq x y) (at level 70).

Lemma Forall2_len {A B} (R : A -> B -> Prop) l l' : Forall2 R l l' -> length l = length l'.
Proof. induction 1; cbn [length]; auto. Qed.
Lemma qq_refl l : l ~~ l.
Proof. induction l; constructor; auto. reflexivity. Qed.
Lemma qq_len l l' : l ~~ l' -> length l = length l'.
Proof. apply Forall2_len. Qed.
Lemma qq_nth l l' : l ~~ l' -> forall i, nth i l 0 == nth i l' 0.
Proof. induction 1; intros [|i]; cbn [nth]; auto; reflexivity. Qed.
Lemma qq_of l l' : length l = length l' -> (forall i, (i < length l)%nat -> nth i l 0 == nth i l' 0) -> l ~~ l'.
Proof. intros HL H. apply (Forall2_nth_iff _ _ _ 0 0). auto. Qed.
Lemma qq_upd l l' : l ~~ l' -> forall i x y, x == y -> upd l i x ~~ upd l' i y.
Proof. induction 1; intros [|i] u v E; cbn [upd]; constructor; auto. Qed.
Lemma qq_tl l l' : l ~~ l' -> tl l ~~ tl l'.
Proof. destruct 1; cbn [tl]; auto. Qed.

Lemma qq_round l l' : l ~~ l' -> round_residues l = round_residues l'.
Proof. intros H. apply round_ext; [now apply qq_len|]. intros n _. now apply qq_nth. Qed.

Lemma qq_add_at idx : forall vals vals' acc acc', vals ~~ vals' -> acc ~~ acc' ->
  add_at acc idx vals ~~ add_at acc' idx vals'.
Proof.
  unfold add_at. induction idx as [|i idx IH]; intros vals vals' acc acc' HV HA; [exact HA|].
  destruct HV as [|x y vals vals' E HV]; cbn [combine fold_left]; [exact HA|].
  apply IH; auto. cbn [fst snd]. apply qq_upd; auto. now rewrite (qq_nth _ _ HA i), E.
Qed.

Lemma qq_dir (pd : Z * Z -> Z) dir : forall gr gr', gr ~~ gr' ->
  map (fun dg => inject_Z (fst dg) * snd dg) (combine (map pd dir) gr)
  ~~ map (fun dg => inject_Z (fst dg) * snd dg) (combine (map pd dir) gr').
Proof.
  induction dir as [|d dir IH]; intros gr gr' H; [constructor|].
  destruct H as [|x y gr gr' E H]; cbn [map combine]; constructor; auto. cbn [fst snd]. now rewrite E.
Qed.

Lemma qq_residues s gr gr' : gr ~~ gr' ->
  compute_residues_from_gradients s gr = compute_residues_from_gradients s gr'.
Proof.
  intros H. unfold compute_residues_from_gradients. rewrite (qq_len _ _ H). destruct (negb _); auto. f_equal.
  apply qq_round, qq_tl. repeat apply qq_add_at; auto using qq_dir, qq_refl.
Qed.

Lemma qq_tsteps dual : forall dir col col' acc acc', col ~~ col' -> acc ~~ acc' ->
  fold_left tstep (combine dual (combine dir col)) acc ~~ fold_left tstep (combine dual (combine dir col')) acc'.
Proof.
  induction dual as [|[c0 c1] dual IH]; intros dir col col' acc acc' HC HA; [exact HA|].
  destruct dir as [|[d0 d1] dir]; [exact HA|]. destruct HC as [|x y col col' E HC]; [exact HA|].
  cbn [combine fold_left]. apply IH; auto. cbn [tstep].
  assert (upd acc c0 (nth c0 acc 0 + inject_Z d0 * x) ~~ upd acc' c0 (nth c0 acc' 0 + inject_Z d0 * y)) as K.
  { apply qq_upd; auto. now rewrite (qq_nth _ _ HA c0), E. }
  destruct (c1 =? 0)%nat; auto. apply qq_upd; auto. now rewrite (qq_nth _ _ K c1), E.
Qed.

Lemma qq_time_residues s col col' : col ~~ col' -> time_residues s col = time_residues s col'.
Proof. intros H. rewrite !time_residues_unfold. apply qq_round, qq_tl, qq_tsteps; auto using qq_refl. Qed.

(** * flood_fill *)
Definition ff_same (a b : ff) : Prop :=
  ff_done a = ff_done b /\ ff_todo a = ff_todo b /\ ff_unw a ~~ ff_unw b /\ ff_err a = ff_err b.
Definition jg_same (a b : nat * Q) : Prop := fst a = fst b /\ snd a == snd b.

Lemma Qle_bool_comp x y x' y' : x == x' -> y == y' -> Qle_bool x y = Qle_bool x' y'.
Proof.
  intros E F. destruct (Qle_bool x y) eqn:A; destruct (Qle_bool x' y') eqn:B; auto.
  - apply Qle_bool_iff in A. rewrite E, F in A. apply Qle_bool_iff in A. congruence.
  - apply Qle_bool_iff in B. rewrite <- E, <- F in B. apply Qle_bool_iff in B. congruence.
Qed.

Lemma ff_nbr_same i st st' jg jg' : ff_same st st' -> jg_same jg jg' -> ff_same (ff_nbr i st jg) (ff_nbr i st' jg').
Proof.
  intros (D & T & U & R) [J G]. destruct jg as [j g], jg' as [j' g']. cbn [fst snd] in J, G. subst j'.
  unfold ff_nbr. rewrite <- D.
  assert (nth i (ff_unw st) 0 + g == nth i (ff_unw st') 0 + g') as E by now rewrite (qq_nth _ _ U i), G.
  destruct (nth j (ff_done st) false) eqn:F; cbn [negb].
  - assert (nth i (ff_unw st) 0 + g - nth j (ff_unw st) 0 == nth i (ff_unw st') 0 + g' - nth j (ff_unw st') 0) as E'
      by now rewrite E, (qq_nth _ _ U j).
    rewrite (Qle_bool_comp _ (1 # 1000) _ _ E' (Qeq_refl _)), (Qle_bool_comp (- (1 # 1000)) _ _ _ (Qeq_refl _) E').
    destruct (_ && _)%bool; repeat split; cbn [ff_done ff_todo ff_unw ff_err]; auto.
  - repeat split; cbn [ff_done ff_todo ff_unw ff_err]; try congruence. now apply qq_upd.
Qed.

Lemma ff_nbrs_same i adj adj' : Forall2 jg_same adj adj' -> forall st st', ff_same st st' ->
  ff_same (fold_left (ff_nbr i) adj st) (fold_left (ff_nbr i) adj' st').
Proof. induction 1; intros st st' S; cbn [fold_left]; auto using ff_nbr_same. Qed.

Lemma ff_loop_same adj adj' : (forall i, Forall2 jg_same (adj i) (adj' i)) -> forall fuel st st', ff_same st st' ->
  same_outcome ff_same (ff_loop fuel adj st) (ff_loop fuel adj' st').
Proof.
  intros HA. induction fuel as [|fuel IH]; intros st st' S; pose proof S as (D & T & U & R); cbn [ff_loop]; rewrite <- T;
    destruct (ff_todo st) as [|i rest]; cbn [same_outcome]; auto.
  apply IH. apply ff_nbrs_same; auto. repeat split; cbn [ff_done ff_todo ff_unw ff_err]; auto.
Qed.

Lemma nbrs_same links pt : forall gr gr', gr ~~ gr' -> Forall2 jg_same (nbrs links gr pt) (nbrs links gr' pt).
Proof.
  unfold nbrs. induction links as [|[a b] links IH]; intros gr gr' H; [constructor|].
  destruct H as [|x y gr gr' E H]; cbn [combine flat_map]; [constructor|]. apply Forall2_app; [|now apply IH].
  apply Forall2_app; destruct (_ =? _)%nat; repeat constructor; cbn [fst snd]; auto. now rewrite E.
Qed.

Lemma flood_same m indata indata' links flows :
  length indata = length indata' ->
  link_grads m indata links flows ~~ link_grads m indata' links flows ->
  same_outcome (fun u u' => length u = length u' /\ forall v, (v < length u)%nat ->
      match m with
      | Points => nth v u 0 - nth 0 indata 0 == nth v u' 0 - nth 0 indata' 0
      | _ => nth v u 0 == nth v u' 0
      end)
    (flood_fill indata links flows m) (flood_fill indata' links flows m).
Proof.
  intros HL HG. unfold flood_fill. rewrite <- HL.
  destruct (negb (length links =? length flows)%nat); [destruct m; reflexivity|].
  destruct (max_point links) as [npts|er]; [|destruct m; reflexivity]. cbn [bind].
  assert (same_outcome ff_same
    (ff_loop npts (nbrs links (link_grads m indata links flows)) (FF (upd (repeat false npts) 0 true) [0%nat] (repeat 0 npts) 0))
    (ff_loop npts (nbrs links (link_grads m indata' links flows)) (FF (upd (repeat false npts) 0 true) [0%nat] (repeat 0 npts) 0))) as K.
  { apply ff_loop_same; [intros i; now apply nbrs_same|]. repeat split; auto using qq_refl. }
  assert (forall r r' : res ff, same_outcome ff_same r r' ->
    forall (f : ff -> res (list Q)) f' R, (forall a b, ff_same a b -> same_outcome R (f a) (f' b)) ->
      same_outcome R (bind r f) (bind r' f')) as B.
  { intros [a|x] [b|y] H f f' R HF; cbn [same_outcome bind] in *; auto; contradiction. }
  destruct m; [| |reflexivity]; (destruct (negb _); [reflexivity|]); cbv zeta; (eapply B; [exact K|]); clear K B;
    intros a b (D & T & U & R); rewrite <- R, <- D; (destruct (0 <? ff_err a)%nat; [reflexivity|]);
    (destruct (negb _); [reflexivity|]); cbn [same_outcome].
  - rewrite !map_length. split; [now apply qq_len|]. intros v Hv. pose proof (qq_len _ _ U) as LU.
    rewrite !(map_nth' _ _ _ 0) by lia. rewrite (qq_nth _ _ U v). ring.
  - split; [now apply qq_len|]. intros v _. now apply qq_nth.
Qed.

Lemma link_grads_grad indata indata' links flows : indata ~~ indata' ->
  link_grads Gradients indata links flows ~~ link_grads Gradients indata' links flows.
Proof.
  intros H. unfold link_grads. induction (seq 0 (length links)) as [|i l IH]; cbn [map]; constructor; auto.
  now rewrite (qq_nth _ _ H i).
Qed.

(** * One interferogram in space *)
Lemma space_same smcf s cost row row' : row ~~ row' ->
  same_outcome same_values (unwrap_ifg_in_space smcf s cost row) (unwrap_ifg_in_space smcf s cost row').
Proof.
  intros H. unfold unwrap_ifg_in_space. rewrite (qq_residues s _ _ H).
  destruct (compute_residues_from_gradients s row') as [r|er]; cbn [bind]; [|reflexivity].
  destruct (residues_to_flows smcf s r cost None) as [k|er]; cbn [bind]; [|reflexivity].
  pose proof (flood_same Gradients row row' (g_links (s_graph s)) k (qq_len _ _ H) (link_grads_grad _ _ _ _ H)) as F.
  destruct (flood_fill row _ _ _) as [u|x], (flood_fill row' _ _ _) as [u'|x']; cbn [same_outcome] in *; auto.
  destruct F as [L F]. apply qq_of; auto.
Qed.

(** * Gathering *)
Lemma map_res_same {A B} (R : B -> B -> Prop) (f f' : A -> res B) l :
  (forall a, In a l -> same_outcome R (f a) (f' a)) ->
  same_outcome (Forall2 R) (map_res f l) (map_res f' l).
Proof.
  induction l as [|a l IH]; intros H; cbn [map_res]; [constructor|].
  pose proof (H a (or_introl eq_refl)) as Ha.
  assert (same_outcome (Forall2 R) (map_res f l) (map_res f' l)) as Hl by (apply IH; intros x I; apply H; now right).
  destruct (f a), (f' a); cbn [same_outcome bind] in *; auto; try contradiction.
  destruct (map_res f l), (map_res f' l); cbn [same_outcome bind] in *; auto; contradiction.
Qed.

Lemma set_rows_same rs rs' : Forall2 (fun a b => fst a = fst b /\ snd a ~~ snd b) rs rs' ->
  forall init init', Forall2 (Forall2 Qeq) init init' ->
  Forall2 (Forall2 Qeq) (set_rows init rs) (set_rows init' rs').
Proof.
  unfold set_rows. induction 1 as [|[i x] [j y] rs rs' [E F] _ IH]; intros init init' HI; cbn [fold_left]; auto.
  apply IH. cbn [fst snd] in *. subst j. clear - HI F. revert i.
  induction HI; intros [|i]; cbn [upd]; constructor; auto.
Qed.

Lemma in_space_same smcf sched cpu e G G' : Forall2 (Forall2 Qeq) G G' ->
  same_outcome (Forall2 same_values) (unwrap_gradients_in_space smcf sched cpu e G) (unwrap_gradients_in_space smcf sched cpu e G').
Proof.
  intros H. unfold unwrap_gradients_in_space.
  destruct (pick_cost _ _ _ _) as [cost|er]; cbn [bind]; [|reflexivity].
  destruct (_ <=? 0)%Z; [reflexivity|].
  match goal with |- same_outcome _ (bind (map_res ?f ?l) _) (bind (map_res ?f' _) _) =>
    pose proof (map_res_same (fun a b => fst a = fst b /\ snd a ~~ snd b) f f' l) as K end.
  match type of K with ?A -> _ => assert A as KA end.
  { intros ii _.
    assert (map (fun col => nth ii col 0) G ~~ map (fun col => nth ii col 0) G') as E.
    { clear - H. induction H; cbn [map]; constructor; auto. now apply qq_nth. }
    pose proof (space_same smcf (em_space e) cost _ _ E) as S.
    destruct (unwrap_ifg_in_space _ _ _ _), (unwrap_ifg_in_space _ _ _ _); cbn [same_outcome bind] in *; auto. }
  specialize (K KA). clear KA.
  destruct (map_res _ _), (map_res _ _); cbn [same_outcome bind] in *; auto; try contradiction.
  apply set_rows_same; auto. clear. induction (length (em_ifgs e)); cbn [repeat]; constructor; auto using qq_refl.
Qed.

(** * In time *)
Lemma firstn_In {A} (l : list A) n x : In x (firstn n l) -> In x l.
Proof. revert l. induction n as [|n IH]; intros [|a l] H; cbn [firstn In] in *; auto; destruct H; auto. Qed.

Lemma corrected_same cols cols' fl : Forall2 (Forall2 Qeq) cols cols' ->
  Forall2 (Forall2 Qeq)
    (map (fun cf => map (fun vk => fst vk + twopi * inject_Z (snd vk)) (combine (fst cf) (snd cf))) (combine cols fl))
    (map (fun cf => map (fun vk => fst vk + twopi * inject_Z (snd vk)) (combine (fst cf) (snd cf))) (combine cols' fl)).
Proof.
  intros H. revert fl. induction H as [|c c' cols cols' E H IH]; intros [|f fl]; cbn [combine map]; constructor; auto.
  cbn [fst snd]. clear - E. revert f. induction E; intros [|k f]; cbn [combine map]; constructor; auto.
  cbn [fst snd]. now rewrite H.
Qed.

Section Time.
Variables (smcf : list arc -> list Z -> option (list Z)) (cpu : Z) (e : emcf) (cost : list Z).
Variables (i i' : bool) (data data' : list (list Q)).
Hypothesis HC : cols_ok data (em_links e) = true.
Hypothesis HC' : cols_ok data' (em_links e) = true.
Hypothesis HL : forall ab, In ab (em_links e) -> link_column i (em_ifgs e) data ab ~~ link_column i' (em_ifgs e) data' ab.

Lemma batch_same sched bb g g' : Forall2 (Forall2 Qeq) g g' ->
  same_outcome (Forall2 (Forall2 Qeq)) (time_batch smcf sched cpu e cost i data bb g) (time_batch smcf sched cpu e cost i' data' bb g').
Proof.
  intros H. unfold time_batch.
  destruct (_ =? 0)%nat; [exact H|].
  set (inds := firstn _ _).
  assert (forall x, In x inds -> In x (em_links e)) as Sub.
  { intros x Hx. unfold inds in Hx. rewrite <- (firstn_skipn (bb * links_per_batch (em_set e)) (em_links e)).
    apply in_or_app. right. eapply firstn_In; exact Hx. }
  rewrite (cols_ok_sub data (em_links e) inds Sub HC), (cols_ok_sub data' (em_links e) inds Sub HC'). cbn [negb].
  set (cols := map (link_column i _ _) inds). set (cols' := map (link_column i' _ _) inds).
  assert (Forall2 (Forall2 Qeq) cols cols') as K.
  { unfold cols, cols'. clear - Sub HL. induction inds as [|x l IH]; cbn [map]; constructor.
    - apply HL, Sub. now left.
    - apply IH. intros y Hy. apply Sub. now right. }
  assert (map (time_residues (em_time e)) cols = map (time_residues (em_time e)) cols') as ->.
  { clear - K. induction K; cbn [map]; f_equal; auto using qq_time_residues. }
  destruct (residues_to_flows_many _ _ _ _ _ _ _ _) as [fl|er]; cbn [bind]; [|reflexivity].
  cbn [same_outcome]. unfold set_slice.
  pose proof (corrected_same cols cols' fl K) as F. pose proof (Forall2_len _ _ _ F) as EL.
  repeat apply Forall2_app; auto.
  - clear - H. generalize (bb * links_per_batch (em_set e))%nat. induction H; intros [|n]; cbn [firstn]; constructor; auto.
  - rewrite EL. match goal with |- Forall2 _ (skipn ?m _) _ => generalize m end.
    clear - H. induction H; intros [|n]; cbn [skipn]; try constructor; auto.
Qed.

Lemma batches_same sched bbs : forall g g', Forall2 (Forall2 Qeq) g g' ->
  same_outcome (Forall2 (Forall2 Qeq)) (time_batches smcf sched cpu e cost i data bbs g) (time_batches smcf sched cpu e cost i' data' bbs g').
Proof.
  induction bbs as [|bb t IH]; intros g g' H; cbn [time_batches]; [exact H|].
  pose proof (batch_same (sched bb) bb g g' H) as K.
  destruct (time_batch _ _ _ _ _ _ _ _ _), (time_batch _ _ _ _ _ _ _ _ _); cbn [same_outcome bind] in *; auto; contradiction.
Qed.
End Time.

Lemma in_time_same smcf sched cpu e i i' data data' :
  cols_ok data (em_links e) = true -> cols_ok data' (em_links e) = true ->
  (forall ab, In ab (em_links e) -> link_column i (em_ifgs e) data ab ~~ link_column i' (em_ifgs e) data' ab) ->
  same_outcome (Forall2 (Forall2 Qeq)) (unwrap_gradients_in_time smcf sched cpu e i data) (unwrap_gradients_in_time smcf sched cpu e i' data').
Proof.
  intros C C' HL. unfold unwrap_gradients_in_time.
  destruct (pick_cost _ _ _ _) as [cost|er]; cbn [bind]; [|reflexivity].
  apply batches_same; auto. clear. induction (length (em_links e)); cbn [repeat]; constructor; auto using qq_refl.
Qed.

Lemma column_same ifgs links i i' data data' : same_differences ifgs links i i' data data' ->
  forall ab, In ab links -> link_column i ifgs data ab ~~ link_column i' ifgs data' ab.
Proof.
  intros H [a b] Hl. apply qq_of.
  { unfold link_column. destruct i, i'; now rewrite ?map_length, ?seq_length. }
  intros n Hn. assert ((n < length ifgs)%nat) as Hn'.
  { unfold link_column in Hn. destruct i; rewrite map_length, ?seq_length in Hn; auto. }
  destruct (H n a b Hn' Hl) as [C T]. cbv zeta in *.
  assert (forall (ii : bool) dd, cong2pi (ifg_phase ii ifgs dd n b - ifg_phase ii ifgs dd n a) (ifg_phase i ifgs data n b - ifg_phase i ifgs data n a) ->
    nth n (link_column ii ifgs dd (a, b)) 0 == phase_diff (ifg_phase i ifgs data n a) (ifg_phase i ifgs data n b) 0) as K.
  { intros ii dd C'. unfold link_column. unfold ifg_phase in C' at 1 2. destruct ii.
    - rewrite (map_nth' _ _ _ 0%nat) by (rewrite seq_length; auto). rewrite seq_nth by auto. cbn [Nat.add].
      unfold at2. now apply pd_same.
    - rewrite (map_nth' _ _ _ (0%nat, 0%nat)) by auto. apply pd_same; auto. unfold at2.
      eapply cong2pi_trans; [apply cong2pi_sub; apply pd_cong|]. exact C'. }
  rewrite (K i data (cong2pi_refl _)), (K i' data' C). reflexivity.
Qed.

Lemma covers_ok data links : covers data links -> cols_ok data links = true.
Proof.
  intros H. unfold cols_ok. apply forallb_forall. intros row Hr. apply forallb_forall. intros [a b] Hl.
  destruct (H row a b Hr Hl). cbn [fst snd]. lia.
Qed.

Theorem cube_same smcf tsched ssched cpu e c c' i i' :
  classify e c = Ok i -> classify e c' = Ok i' ->
  covers (cu_data c) (em_links e) -> covers (cu_data c') (em_links e) ->
  same_differences (em_ifgs e) (em_links e) i i' (cu_data c) (cu_data c') ->
  same_outcome (Forall2 same_values) (unwrap_cube smcf tsched ssched cpu e c) (unwrap_cube smcf tsched ssched cpu e c').
Proof.
  intros K K' C C' S. unfold unwrap_cube. rewrite K, K'. cbn [bind].
  pose proof (in_time_same smcf tsched cpu e i i' (cu_data c) (cu_data c') (covers_ok _ _ C) (covers_ok _ _ C') (column_same _ _ _ _ _ _ S)) as T.
  destruct (unwrap_gradients_in_time _ _ _ _ _ _), (unwrap_gradients_in_time _ _ _ _ _ _); cbn [same_outcome bind] in *; auto; try contradiction.
  now apply in_space_same.
Qed.

(** * unwrap_one *)
Section One.
Variables (g : graph) (Hp : planar g).
Variables (p p' : list Q).
Hypothesis HN : length p = length p'.
Hypothesis HS : forall a b, In (a, b) (g_links g) ->
  cong2pi (nth b p' 0 - nth a p' 0) (nth b p 0 - nth a p 0) /\ ~ tie (nth a p 0) (nth b p 0) 0.

Lemma step_same x y : (In (x, y) (g_links g) \/ In (y, x) (g_links g)) ->
  phase_diff (nth x p 0) (nth y p 0) 0 == phase_diff (nth x p' 0) (nth y p' 0) 0.
Proof.
  intros [L|L]; destruct (HS _ _ L) as [C T]; symmetry.
  - now apply pd_same.
  - rewrite (pd_swap (nth y p' 0)), (pd_swap (nth y p 0)). now rewrite pd_same.
Qed.

Hypothesis HL : length p = g_npoints g.

Lemma residues_same : compute_residues (dual_solver g) p = compute_residues (dual_solver g) p'.
Proof.
  destruct (compute_residues_spec g p Hp HL) as (r & E & Lr & Sr & Hr).
  destruct (compute_residues_spec g p' Hp ltac:(congruence)) as (r' & E' & Lr' & Sr' & Hr').
  rewrite E, E'. f_equal.
  assert (forall n, (n < length (g_cycles g))%nat -> nth (n + 1) r 0%Z = nth (n + 1) r' 0%Z) as K.
  { intros n Hn. rewrite Hr, Hr' by auto. apply rint_comp. apply Qmult_comp; [|reflexivity].
    apply (circQ_ext g); auto; [now apply nth_In|]. intros a b Hl. unfold pd_link. apply step_same. now left. }
  destruct r as [|x r], r' as [|x' r']; cbn [length] in Lr, Lr'; try lia.
  assert (r = r') as ->.
  { apply (nth_ext_len _ _ 0%Z); [lia|]. intros n Hn. specialize (K n ltac:(lia)). now rewrite Nat.add_1_r in K. }
  rewrite !sumZ_cons in *. f_equal. lia.
Qed.

Lemma grads_same k : link_grads Points p (g_links g) k ~~ link_grads Points p' (g_links g) k.
Proof.
  unfold link_grads.
  assert (forall i, In i (seq 0 (length (g_links g))) -> (i < length (g_links g))%nat) as B by (intros i I; apply in_seq in I; lia).
  induction (seq 0 (length (g_links g))) as [|i l IH]; cbn [map]; constructor; [|apply IH; intros j J; apply B; now right].
  pose proof (nth_In _ (0, 0)%nat (B i (or_introl eq_refl))) as I. destruct (nth i (g_links g) (0, 0)%nat) as [a b].
  cbn [fst snd]. rewrite step_same; [reflexivity|now left].
Qed.

Theorem one_same smcf cost revcost :
  same_outcome (fun r r' => snd r = snd r' /\ length (fst r) = length (fst r') /\
      forall v, (v < length (fst r))%nat -> nth v (fst r) 0 - nth 0 p 0 == nth v (fst r') 0 - nth 0 p' 0)
    (unwrap_one smcf (dual_solver g) p cost revcost) (unwrap_one smcf (dual_solver g) p' cost revcost).
Proof.
  unfold unwrap_one. rewrite residues_same. destruct (compute_residues _ p') as [r|er]; cbn [bind]; [|reflexivity].
  destruct (residues_to_flows _ _ _ _ _) as [k|er]; cbn [bind]; [|reflexivity].
  pose proof (flood_same Points p p' (g_links g) k HN (grads_same k)) as F. cbn [dual_solver s_graph].
  destruct (flood_fill p _ _ _), (flood_fill p' _ _ _); cbn [same_outcome bind] in *; auto.
Qed.
End One.
