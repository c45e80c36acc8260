(** C47: what the settings objects accept. C56: the folders of a run. *)
From Coq Require Import ZifyBool.
From Verif Require Import Base BaseLemmas TileModel EmcfModel SettingsModel SettingsSpec.
From Coq Require Import List.
Import ListNotations.
Set Default Goal Selector "!".
Local Open Scope string_scope.
Local Open Scope Z_scope.

Lemma mem_cost s : mem s cost_types = true <-> known_cost s.
Proof.
  unfold mem, cost_types, known_cost. cbn [existsb].
  rewrite !orb_true_iff, !String.eqb_eq. intuition discriminate.
Qed.

Lemma mem_bulk s : mem s ["integer"; "L2"] = true <-> s = "integer" \/ s = "L2".
Proof.
  unfold mem. cbn [existsb]. rewrite !orb_true_iff, !String.eqb_eq. intuition discriminate.
Qed.

Lemma Qle_bool_neg q : Qle_bool q 0 = false <-> (0 < q)%Q.
Proof.
  split; intros H.
  - apply Qnot_le_lt. intros C. apply Qle_bool_iff in C. congruence.
  - destruct (Qle_bool q 0) eqn:E; [|reflexivity].
    apply Qle_bool_iff in E. lra.
Qed.

Lemma le_zero_spec x : le_zero x = false <-> positive x \/ x = NaN.
Proof.
  destruct x; cbn [le_zero positive]; rewrite ?Qle_bool_neg; intuition (try discriminate; auto).
Qed.

(** * C47 *)

(** Exactly what [SolverSettings] accepts: the documented values, and
    not-a-number as a cost scale. *)
Theorem C47_solver_exact s :
  (solver_post_init s = Ok s <->
   known_cost (ss_t_cost_type s) /\ known_cost (ss_s_cost_type s) /\ 0 < ss_batch s /\
   (positive (ss_t_cost_scale s) \/ is_nan (ss_t_cost_scale s)) /\
   (positive (ss_s_cost_scale s) \/ is_nan (ss_s_cost_scale s)) /\
   1 <= ss_parallel_tiles s /\ workers_set s) /\
  (solver_post_init s = Ok s \/ solver_post_init s = Err ValueError).
Proof.
  unfold solver_post_init, workers_set, is_nan.
  rewrite <- !mem_cost, <- !le_zero_spec.
  destruct (mem (ss_t_cost_type s) cost_types); cbn [negb];
    [|split; [split; [discriminate | intros (H & _); discriminate] | auto]].
  destruct (mem (ss_s_cost_type s) cost_types); cbn [negb];
    [|split; [split; [discriminate | intros (_ & H & _); discriminate] | auto]].
  destruct (ss_batch s <=? 0) eqn:E1;
    [split; [split; [discriminate | lia] | auto]|].
  destruct (le_zero (ss_t_cost_scale s));
    [split; [split; [discriminate | intros (_ & _ & _ & H & _); discriminate] | auto]|].
  destruct (le_zero (ss_s_cost_scale s));
    [split; [split; [discriminate | intros (_ & _ & _ & _ & H & _); discriminate] | auto]|].
  destruct (ss_parallel_tiles s <? 1) eqn:E2;
    [split; [split; [discriminate | lia] | auto]|].
  destruct (1 <? ss_parallel_tiles s) eqn:E3.
  - destruct (ss_t_workers s <? 1) eqn:E4; [split; [split; [discriminate | lia] | auto]|].
    destruct (ss_s_workers s <? 1) eqn:E5; [split; [split; [discriminate | lia] | auto]|].
    split; [|auto]. split; [intros _; repeat split; lia | reflexivity].
  - split; [|auto]. split; [intros _; repeat split; lia | reflexivity].
Qed.

(** The construct-iff-documented claim for every scale that is a number. *)
Theorem C47_solver_partial s :
  ~ is_nan (ss_t_cost_scale s) -> ~ is_nan (ss_s_cost_scale s) ->
  (documented_solver s -> solver_post_init s = Ok s) /\
  (~ documented_solver s -> solver_post_init s = Err ValueError).
Proof.
  intros N1 N2. destruct (C47_solver_exact s) as [X D].
  assert (E : solver_post_init s = Ok s <-> documented_solver s).
  { rewrite X. unfold documented_solver, documented_common. tauto. }
  split; [apply E|]. intros H. destruct D as [D|D]; [|exact D].
  exfalso. apply H, E, D.
Qed.

Example C47_solver_witness :
  let s := SolverSettings 3 2 500 "distance" (Fin (7 # 2)) "centroid" PInf 4 in
  ~ is_nan (ss_t_cost_scale s) /\ ~ is_nan (ss_s_cost_scale s) /\ documented_solver s.
Proof.
  cbn. unfold is_nan, documented_solver, documented_common, known_cost, workers_set.
  cbn. intuition (try discriminate; try lra; try lia; auto).
Qed.
Example C47_solver_witness_bad :
  let s := SolverSettings 0 2 500 "distance" (Fin (7 # 2)) "centroid" PInf 4 in
  ~ is_nan (ss_t_cost_scale s) /\ ~ is_nan (ss_s_cost_scale s) /\ ~ documented_solver s.
Proof.
  cbn. unfold is_nan. split; [discriminate|]. split; [discriminate|].
  unfold documented_solver, documented_common, workers_set. cbn. intros H. lia.
Qed.

(** A cost scale that is not a number is accepted. *)
Theorem C47_nan_refuted :
  exists s, ~ documented_solver s /\ ~ documented_solver_docstring s /\
            solver_post_init s = Ok s.
Proof.
  exists (SolverSettings 0 1 10000 "constant" NaN "constant" (Fin 100) 1).
  split; [|split; [|reflexivity]].
  - intros ((_ & _ & _ & H & _) & _). exact H.
  - intros ((_ & _ & _ & H & _) & _). exact H.
Qed.

(** Zero tiles in parallel, documented to mean all tiles, is rejected. *)
Theorem C47_zero_tiles_refuted :
  exists s, documented_solver_docstring s /\ solver_post_init s = Err ValueError.
Proof.
  exists (SolverSettings 0 1 10000 "constant" (Fin 100) "constant" (Fin 100) 0).
  split; [|reflexivity].
  unfold documented_solver_docstring, documented_common, known_cost, workers_set. cbn.
  intuition (try lra; try lia).
Qed.

Theorem C47_tiler s :
  (documented_tiler s -> tiler_post_init s = Ok s) /\
  (~ documented_tiler s -> tiler_post_init s = Err ValueError).
Proof.
  unfold tiler_post_init, documented_tiler.
  destruct (ts_max_tiles s <? 1) eqn:E1; [split; [lia | reflexivity]|].
  destruct (Qle_bool 0 (dilation_factor s)) eqn:E2; cbn [negb].
  2: { split; [|reflexivity]. intros (_ & H & _). apply Qle_bool_iff in H. congruence. }
  apply Qle_bool_iff in E2.
  destruct (target_points_for_generation s <=? 0) eqn:E3; [split; [lia | reflexivity]|].
  destruct (target_points_per_tile s <=? 0) eqn:E4; [split; [lia | reflexivity]|].
  split; [reflexivity|]. intros H. exfalso. apply H. repeat split; try lia. exact E2.
Qed.

Example C47_tiler_witness :
  documented_tiler (TilerSettings 5000 9 100 0) /\ ~ documented_tiler (TilerSettings 5000 9 100 (-1 # 9)).
Proof.
  unfold documented_tiler. cbn. split.
  - repeat split; try lia. lra.
  - intros (_ & H & _). lra.
Qed.

Theorem C47_merger s :
  (documented_merger s -> merger_post_init s = Ok s) /\
  (~ documented_merger s -> merger_post_init s = Err ValueError).
Proof.
  unfold merger_post_init, documented_merger. rewrite <- mem_bulk, <- String.eqb_eq.
  destruct (mem (ms_bulk_method s) ["integer"; "L2"]), (String.eqb (ms_method s) "dirichlet");
    cbn [negb]; split; intros H; try reflexivity; exfalso; intuition congruence.
Qed.

Example C47_merger_witness :
  documented_merger (MergerSettings (-3) "dirichlet" "integer" 0) /\
  ~ documented_merger (MergerSettings 25 "dirichlet" "l2" 1).
Proof.
  unfold documented_merger. cbn. split; [auto|]. intros (_ & [H|H]); discriminate.
Qed.

(** Every accepted object gives the solver a known cost type and at least one
    link per batch, which is what its batching relies on. *)
Theorem C47_solver_usable s : solver_post_init s = Ok s ->
  t_cost_type (emcf_settings s) <> OtherCost /\ s_cost_type (emcf_settings s) <> OtherCost /\
  (0 < links_per_batch (emcf_settings s))%nat /\
  forall n dist cent, exists c, pick_cost (t_cost_type (emcf_settings s)) n dist cent = Ok c.
Proof.
  intros H. apply (proj1 (C47_solver_exact s)) in H as (K1 & K2 & B & _).
  cbn [emcf_settings t_cost_type s_cost_type links_per_batch].
  assert (C : forall x, known_cost x -> cost_type_of x <> OtherCost).
  { intros x [-> | [-> | ->]]; discriminate. }
  split; [apply C; exact K1|]. split; [apply C; exact K2|]. split; [lia|].
  intros n dist cent. pose proof (C _ K1) as N.
  destruct (cost_type_of (ss_t_cost_type s)); cbn [pick_cost]; eauto. congruence.
Qed.

(** It reads the fields under their own names. *)
Theorem C47_solver_reads s : solver_post_init s = Ok s ->
  (forall x c, In (x, c) [("constant", Constant); ("distance", Distance); ("centroid", Centroid)] ->
     (ss_t_cost_type s = x <-> t_cost_type (emcf_settings s) = c) /\
     (ss_s_cost_type s = x <-> s_cost_type (emcf_settings s) = c)) /\
  Z.of_nat (links_per_batch (emcf_settings s)) = ss_batch s /\
  t_worker_count (emcf_settings s) = ss_t_workers s /\ s_worker_count (emcf_settings s) = ss_s_workers s.
Proof.
  intros H. apply (proj1 (C47_solver_exact s)) in H as (K1 & K2 & B & _).
  cbn [emcf_settings t_cost_type s_cost_type links_per_batch t_worker_count s_worker_count].
  split; [|lia]. intros x c Hx.
  destruct K1 as [E1|[E1|E1]], K2 as [E2|[E2|E2]]; rewrite E1, E2; cbn in Hx;
    repeat destruct Hx as [Hx|Hx]; try (injection Hx as <- <-); try destruct Hx; cbn; split; split; congruence.
Qed.

(** The default objects can be made. *)
Theorem C47_defaults : solver_post_init solver_default = Ok solver_default /\
  tiler_post_init tiler_default = Ok tiler_default /\ merger_post_init merger_default = Ok merger_default /\
  documented_solver solver_default /\ documented_tiler tiler_default /\ documented_merger merger_default /\
  exists ts ss ms, cli_settings cli_default = Ok (true, ts, ss, ms).
Proof.
  split; [reflexivity|]. split; [reflexivity|]. split; [reflexivity|].
  split; [|split; [|split]].
  - unfold documented_solver, documented_common, known_cost, workers_set. cbn. intuition (try lra; try lia).
  - unfold documented_tiler. cbn. intuition (try lra; try lia).
  - unfold documented_merger. cbn. auto.
  - do 3 eexists. reflexivity.
Qed.

(** The default options are the default settings, but for two of them: 49 tiles
    and 150000 links per batch on the command line, 16 and 10000 in the settings
    objects. *)
Theorem C47_cli_defaults :
  cli_settings cli_default =
    Ok (true, TilerSettings (target_points_per_tile tiler_default) 49 (target_points_for_generation tiler_default) (dilation_factor tiler_default),
        SolverSettings (ss_t_workers solver_default) (ss_s_workers solver_default) 150000 (ss_t_cost_type solver_default) (ss_t_cost_scale solver_default)
          (ss_s_cost_type solver_default) (ss_s_cost_scale solver_default) (ss_parallel_tiles solver_default), merger_default) /\
  ts_max_tiles tiler_default = 16 /\ ss_batch solver_default = 10000.
Proof. repeat split. Qed.

(** The command line builds its settings exactly when every option fits. *)
Theorem C47_cli a :
  (documented_cli a -> exists ts ss ms,
     cli_settings a = Ok (negb (c_singletile a), ts, ss, ms) /\
     target_points_per_tile ts = c_pts_per_tile a /\ ts_max_tiles ts = c_max_tiles a /\
     ss_t_workers ss = c_t_workers a /\ ss_s_workers ss = c_s_workers a /\
     ss_batch ss = c_batch a /\ ss_t_cost_type ss = c_t_cost_type a /\
     ss_t_cost_scale ss = Fin (inject_Z (c_t_cost_scale a)) /\
     (* not on the command line: *)
     ss_s_cost_type ss = "constant" /\ ss_s_cost_scale ss = Fin 100 /\
     target_points_for_generation ts = 120000 /\ dilation_factor ts = 5 # 100 /\
     ms_min_overlap ms = 25 /\ ms_method ms = "dirichlet" /\ ms_bulk_method ms = "L2" /\
     ss_parallel_tiles ss = c_unwrap_parallel_tiles a /\
     ms_parallel_ifgs ms = c_merge_parallel_ifgs a /\
     documented_tiler ts /\ documented_solver ss /\ documented_merger ms) /\
  (~ documented_cli a -> cli_settings a = Err ValueError).
Proof.
  unfold cli_settings.
  set (ts := TilerSettings _ _ _ _). set (ss := SolverSettings _ _ _ _ _ _ _ _).
  set (ms := MergerSettings _ _ _ _).
  assert (T : documented_tiler ts <-> 0 < c_pts_per_tile a /\ 1 <= c_max_tiles a).
  { unfold documented_tiler, ts. cbn. intuition (try lia). lra. }
  assert (S : documented_solver ss <->
     known_cost (c_t_cost_type a) /\ 0 < c_batch a /\ 0 < c_t_cost_scale a /\
     1 <= c_unwrap_parallel_tiles a /\
     (1 < c_unwrap_parallel_tiles a -> 0 < c_t_workers a /\ 0 < c_s_workers a)).
  { unfold documented_solver, documented_common, workers_set, ss. cbn.
    assert (Q0 : (0 < inject_Z (c_t_cost_scale a))%Q <-> 0 < c_t_cost_scale a).
    { change 0%Q with (inject_Z 0). rewrite <- Zlt_Qlt. tauto. }
    assert (K : known_cost "constant") by (left; reflexivity).
    assert (P : (0 < 100)%Q) by lra. tauto. }
  assert (M : documented_merger ms) by (unfold documented_merger, ms; cbn; auto).
  assert (N1 : ~ is_nan (ss_t_cost_scale ss)) by discriminate.
  assert (N2 : ~ is_nan (ss_s_cost_scale ss)) by discriminate.
  destruct (C47_tiler ts) as [T1 T2]. destruct (C47_solver_partial ss N1 N2) as [S1 S2].
  destruct (C47_merger ms) as [M1 _].
  unfold documented_cli. split.
  - intros (A1 & A2 & A3 & A4 & A5 & A6 & A7). exists ts, ss, ms.
    assert (DT : documented_tiler ts) by (apply T; tauto).
    assert (DS : documented_solver ss) by (apply S; tauto).
    rewrite (T1 DT). cbn [bind]. rewrite (S1 DS). cbn [bind]. rewrite (M1 M). cbn [bind].
    repeat (split; [reflexivity|]). split; [exact DT|]. split; [exact DS | exact M].
  - intros H.
    destruct (Z_lt_dec 0 (c_pts_per_tile a)) as [P1|P1];
      [|rewrite T2 by tauto; reflexivity].
    destruct (Z_le_dec 1 (c_max_tiles a)) as [P2|P2];
      [|rewrite T2 by tauto; reflexivity].
    rewrite T1 by tauto. cbn [bind]. rewrite S2 by tauto. reflexivity.
Qed.

Example C47_cli_witness :
  documented_cli cli_default /\
  documented_cli (CliArgs 2 3 1000 "centroid" 50 1000 4 0 2 true) /\
  (* tiles in parallel without naming the number of workers *)
  ~ documented_cli (CliArgs 0 1 150000 "constant" 100 800000 49 1 2 false).
Proof.
  unfold documented_cli, known_cost. cbn.
  split; [|split]; [intuition lia | intuition lia | intros H; lia].
Qed.

(** * C56 *)

Lemma path_eqb_eq p q : path_eqb p q = true <-> p = q.
Proof. unfold path_eqb. destruct (list_eq_dec string_dec p q); intuition congruence. Qed.
Lemma path_eqb_refl p : path_eqb p p = true.
Proof. apply path_eqb_eq. reflexivity. Qed.

Lemma is_dir_iff t p : is_dir t p = true <-> exists_dir t p.
Proof.
  unfold is_dir, exists_dir. destruct p as [|a p]; [intuition|].
  destruct (t (a :: p)) as [[|]|]; intuition congruence.
Qed.

Lemma exists_dir_dec t p : {exists_dir t p} + {~ exists_dir t p}.
Proof.
  destruct (is_dir t p) eqn:D; [left; apply is_dir_iff, D | right].
  intros C. apply is_dir_iff in C. congruence.
Qed.

Lemma none_dec (t : tree) p : {t p = None} + {t p <> None}.
Proof. destruct (t p); [right; discriminate | left; reflexivity]. Qed.

Lemma creatable_dec t p : {creatable t p} + {~ creatable t p}.
Proof.
  unfold creatable. destruct (exists_dir_dec t p), (none_dec t p), (exists_dir_dec t (tl p)); tauto.
Qed.

Definition ensure (t : tree) (p : path) : res tree :=
  if is_dir t p then Ok t else mkdir t p.

Lemma ensure_ok t p : creatable t p -> exists t', ensure t p = Ok t' /\ with_dir t t' p.
Proof.
  intros C. unfold ensure. destruct (is_dir t p) eqn:D.
  - exists t. split; [reflexivity|]. split; [apply is_dir_iff, D | reflexivity].
  - destruct C as [C|[N C]]; [apply is_dir_iff in C; congruence|].
    destruct p as [|a p]; [discriminate|]. cbn [mkdir tl] in *.
    rewrite (proj2 (is_dir_iff t p) C), N. eexists. split; [reflexivity|].
    unfold with_dir, exists_dir, tree_add. split.
    + right. rewrite path_eqb_refl. reflexivity.
    + intros q Hq. destruct (path_eqb q (a :: p)) eqn:E; [|reflexivity].
      apply path_eqb_eq in E. congruence.
Qed.

Lemma ensure_err t p : ~ creatable t p -> exists e, ensure t p = Err e.
Proof.
  intros C. unfold ensure. destruct (is_dir t p) eqn:D.
  { exfalso. apply C. left. apply is_dir_iff, D. }
  destruct p as [|a p]; [discriminate|]. cbn [mkdir].
  destruct (is_dir t p) eqn:P.
  - destruct (t (a :: p)) as [[|]|] eqn:T; [| eauto |].
    + exfalso. apply C. left. right. exact T.
    + exfalso. apply C. right. split; [exact T | apply is_dir_iff, P].
  - destruct (t p); eauto.
Qed.

(** The two folders exist afterwards and nothing else has changed; if that is
    impossible, an exception. *)
Theorem C56_folders out tmp t :
  (creatable t out /\
   (creatable t tmp \/ (t tmp = None /\ tl tmp = out)) ->
   exists t1 t2, general_post_init out tmp t = Ok t2 /\
     with_dir t t1 out /\ with_dir t1 t2 tmp /\
     exists_dir t2 out /\ exists_dir t2 tmp /\
     forall q, q <> out -> q <> tmp -> t2 q = t q) /\
  (~ (creatable t out /\ (creatable t tmp \/ (t tmp = None /\ tl tmp = out))) ->
   exists e, general_post_init out tmp t = Err e).
Proof.
  change (general_post_init out tmp t) with (bind (ensure t out) (fun t => ensure t tmp)).
  assert (A : creatable t out -> forall t1, with_dir t t1 out ->
     (creatable t1 tmp <-> creatable t tmp \/ (t tmp = None /\ tl tmp = out))).
  { intros Cout t1 [W1 W2]. unfold creatable.
    assert (X : forall q, exists_dir t1 q <-> exists_dir t q \/ q = out).
    { intros q. destruct (list_eq_dec string_dec q out) as [->|N]; [tauto|].
      unfold exists_dir. rewrite (W2 q N). tauto. }
    rewrite !X.
    destruct (list_eq_dec string_dec tmp out) as [->|N].
    - unfold creatable in Cout. tauto.
    - rewrite (W2 tmp N). tauto. }
  split.
  - intros [C1 C2]. destruct (ensure_ok t out C1) as (t1 & E1 & W1).
    destruct (ensure_ok t1 tmp) as (t2 & E2 & W2); [apply (A C1 t1 W1), C2|].
    exists t1, t2. rewrite E1. cbn [bind]. split; [exact E2|]. split; [exact W1|].
    split; [exact W2|]. destruct W1 as [W1 W1'], W2 as [W2 W2'].
    split.
    { destruct (list_eq_dec string_dec out tmp) as [->|N]; [exact W2|].
      destruct W1 as [W1|W1]; [left; exact W1|right; rewrite W2' by exact N; exact W1]. }
    split; [exact W2|]. intros q Q1 Q2. rewrite W2', W1' by assumption. reflexivity.
  - intros H.
    destruct (ensure t out) as [t1|e] eqn:E1; cbn [bind]; [|eauto].
    destruct (creatable_dec t out) as [C1|C1]; [|destruct (ensure_err t out C1) as [e E]; congruence].
    destruct (ensure_ok t out C1) as (t1' & E1' & W1).
    assert (t1' = t1) by congruence. subst t1'.
    apply ensure_err. intros C2. apply H. split; [exact C1|]. apply (A C1 t1 W1), C2.
Qed.

(** A second object for the same folders changes nothing. *)
Theorem C56_again out tmp t t' : general_post_init out tmp t = Ok t' ->
  general_post_init out tmp t' = Ok t'.
Proof.
  intros H.
  assert (X : exists_dir t' out /\ exists_dir t' tmp).
  { destruct (C56_folders out tmp t) as [F1 F2].
    assert (Dd : (creatable t out /\ (creatable t tmp \/ (t tmp = None /\ tl tmp = out))) \/
                 ~ (creatable t out /\ (creatable t tmp \/ (t tmp = None /\ tl tmp = out)))).
    { destruct (creatable_dec t out), (creatable_dec t tmp), (none_dec t tmp),
        (list_eq_dec string_dec (tl tmp) out); tauto. }
    destruct Dd as [Dd|Dd].
    - destruct (F1 Dd) as (t1 & t2 & E & _ & _ & X1 & X2 & _).
      rewrite E in H. injection H as <-. split; assumption.
    - destruct (F2 Dd) as [e E]. congruence. }
  destruct X as [X1 X2]. apply is_dir_iff in X1, X2.
  unfold general_post_init. rewrite X1. cbn [bind]. rewrite X2. reflexivity.
Qed.

(** The temporary folder may be inside a new output folder, but not the other
    way round: the output folder is created first and without its parents. *)
Definition home : tree := tree_add (fun _ => None) ["data"] Dir.
Example C56_witness :
  creatable home ["out"; "data"] /\
  home ["tmp"; "out"; "data"] = None /\ tl ["tmp"; "out"; "data"] = ["out"; "data"] /\
  (exists t, general_post_init ["out"; "data"] ["tmp"; "out"; "data"] home = Ok t) /\
  general_post_init ["out"; "tmp"; "data"] ["tmp"; "data"] home = Err FileNotFoundError.
Proof.
  split; [|split; [reflexivity|split; [reflexivity|split]]].
  - right. split; [reflexivity | right; reflexivity].
  - eexists. reflexivity.
  - reflexivity.
Qed.

Print Assumptions C47_solver_exact.
Print Assumptions C47_solver_partial.
Print Assumptions C47_nan_refuted.
Print Assumptions C47_zero_tiles_refuted.
Print Assumptions C47_tiler.
Print Assumptions C47_merger.
Print Assumptions C47_solver_usable.
Print Assumptions C47_solver_reads.
Print Assumptions C47_defaults.
Print Assumptions C47_cli_defaults.
Print Assumptions C47_cli.
Print Assumptions C56_folders.
Print Assumptions C56_again.
