(** Property C55: edge costs. Coordinates are arbitrary reals. *)
From Coq Require Import Reals.
From Verif Require Import Base BaseLemmas GraphModel GraphSpec GraphProofs Hop3Proofs McfModel McfSpec DualProofs
  ResidueProofs FlowProofs EmcfModel EmcfSpec CostModel CostSpec CostProofs Props_Mcf Props_Emcf.
From Coq Require Import Lra ZifyBool.
Set Default Goal Selector "!".
Local Open Scope R_scope.

Definition valid_edges (points : list (R * R)) (edges : list (nat * nat)) : Prop :=
  forall a b, In (a, b) edges -> (a < length points)%nat /\ (b < length points)%nat.

(** ** Distance costs *)
Theorem C55_distance : forall junk points edges scale, 0 < scale -> valid_edges points edges ->
  (forall a b, In (a, b) edges -> pos points a <> pos points b) ->
  exists costs, distance_costs junk points edges scale = Ok costs /\ length costs = length edges /\
    forall i a b, (i < length edges)%nat -> nth i edges (0, 0)%nat = (a, b) ->
      (1 <= nth i costs 0)%Z /\
      exists d, is_distance (pos points a) (pos points b) d /\ nearest (1 + scale / d) (nth i costs 0%Z).
Proof.
  intros junk points edges scale S V D.
  destruct (map_res_forall (fun e => do p <- index points (fst e); do q <- index points (snd e);
                    Ok (edge_cost junk scale (norm_diff p q)))
     (fun e c => (1 <= c)%Z /\ exists d, is_distance (pos points (fst e)) (pos points (snd e)) d /\ nearest (1 + scale / d) c)
     edges) as (costs & E & F).
  { intros [a b] H. cbn [fst snd]. destruct (V a b H) as [Ha Hb]. rewrite !index_pos by assumption. cbn [bind].
    pose proof (norm_diff_distance (pos points a) (pos points b)) as N.
    assert (nz : norm_diff (pos points a) (pos points b) <> 0).
    { intros Q. apply (D a b H). apply (distance_zero _ _ _ N). exact Q. }
    assert (P : 0 < norm_diff (pos points a) (pos points b)).
    { destruct N as [[N|N] _]; [exact N|]. rewrite <- N in nz. lra. }
    destruct (edge_cost_ok junk scale _ S P) as (c & Ec & Nc & Pc). exists c. split; [f_equal; exact Ec|]. eauto. }
  exists costs. split; [exact E|]. clear E.
  assert (L : length costs = length edges) by (clear - F; induction F; cbn [length]; [reflexivity|rewrite IHF; reflexivity]).
  split; [exact L|]. intros i a b Hi Ei.
  assert (G : forall (R : nat * nat -> Z -> Prop) l r, Forall2 R l r -> forall j, (j < length l)%nat -> R (nth j l (0, 0)%nat) (nth j r 0%Z)).
  { clear. induction 1; intros [|j] Hj; cbn [length] in Hj; try lia; cbn [nth]; [assumption|apply IHForall2; lia]. }
  pose proof (G _ _ _ F i Hi) as Q. cbn beta in Q. rewrite Ei in Q. exact Q.
Qed.

(** The farther apart, the cheaper. *)
Theorem C55_monotone : forall junk points edges scale costs, 0 < scale ->
  distance_costs junk points edges scale = Ok costs ->
  forall i j a b a' b' d d', (i < length edges)%nat -> (j < length edges)%nat ->
    nth i edges (0, 0)%nat = (a, b) -> nth j edges (0, 0)%nat = (a', b') ->
    is_distance (pos points a) (pos points b) d -> is_distance (pos points a') (pos points b') d' ->
    0 < d <= d' -> (nth j costs 0 <= nth i costs 0)%Z.
Proof.
  intros junk points edges scale costs S E.
  assert (G : forall j a b d, (j < length edges)%nat -> nth j edges (0, 0)%nat = (a, b) ->
    is_distance (pos points a) (pos points b) d -> 0 < d -> nearest (1 + scale / d) (nth j costs 0%Z)).
  { revert costs E. unfold distance_costs. clear - S. induction edges as [|[u v] edges IH]; intros costs E j a b d Hj Ej Hd Pd; [cbn in Hj; lia|].
    cbn [map_res fst snd] in E. unfold index at 1 in E. destruct (nth_error points u) as [p|] eqn:Ep; [|discriminate]. cbn [bind] in E.
    unfold index at 1 in E. destruct (nth_error points v) as [q|] eqn:Eq; [|discriminate]. cbn [bind] in E.
    destruct (map_res _ edges) as [r|] eqn:Er; [|discriminate]. cbn [bind] in E. injection E as <-.
    destruct j as [|j]; cbn [nth] in Ej |- *.
    - injection Ej as <- <-.
      assert (Pp : pos points u = p) by (unfold pos; apply nth_error_nth; exact Ep).
      assert (Pq : pos points v = q) by (unfold pos; apply nth_error_nth; exact Eq).
      rewrite Pp, Pq in Hd. pose proof (distance_unique p q d _ Hd (norm_diff_distance p q)) as Dd. rewrite <- Dd.
      unfold edge_cost. destruct (Req_EM_T d 0) as [Z|_]; [lra|]. apply rintR_nearest.
    - apply (IH r eq_refl j a b d); [cbn [length] in Hj; lia|exact Ej|exact Hd|exact Pd]. }
  intros i j a b a' b' d d' Hi Hj Ei Ej Hd Hd' [P1 Hle]. assert (P2 : 0 < d') by lra.
  pose proof (G i a b d Hi Ei Hd P1) as N1. pose proof (G j a' b' d' Hj Ej Hd' P2) as N2.
  apply (nearest_mono _ _ _ _ N2 N1). assert (scale / d' <= scale / d); [|lra].
  unfold Rdiv. apply Rmult_le_compat_l; [lra|]. apply Rinv_le_contravar; assumption.
Qed.

(** Two linked points at the same position: the division by zero is not caught, and
    the link gets the unspecified integer. *)
Theorem C55_coincident : forall junk points edges scale, valid_edges points edges ->
  exists costs, distance_costs junk points edges scale = Ok costs /\ length costs = length edges /\
    forall i a b, (i < length edges)%nat -> nth i edges (0, 0)%nat = (a, b) -> pos points a = pos points b ->
      nth i costs 0%Z = junk scale.
Proof.
  intros junk points edges scale. unfold distance_costs. induction edges as [|[u v] edges IH]; intros V.
  { exists []. split; [reflexivity|]. split; [reflexivity|]. intros i a b Hi. cbn in Hi. lia. }
  destruct IH as (costs & E & L & F); [intros x y H; apply V; right; exact H|].
  cbn [map_res fst snd]. destruct (V u v (or_introl eq_refl)) as [Hu Hv]. rewrite !index_pos by assumption. cbn [bind].
  rewrite E. cbn [bind]. eexists. split; [reflexivity|]. split; [cbn [length]; rewrite L; reflexivity|].
  intros [|i] a b Hi Ei Q; cbn [nth length] in Hi, Ei |- *; [|apply (F i a b); [lia|exact Ei|exact Q]].
  injection Ei as <- <-. unfold edge_cost. pose proof (norm_diff_distance (pos points u) (pos points v)) as N.
  destruct (Req_EM_T (norm_diff (pos points u) (pos points v)) 0) as [_|NZ]; [reflexivity|].
  exfalso. apply NZ. apply (distance_zero _ _ _ N). exact Q.
Qed.
(** With the usual value this is a hugely negative cost: "costs are at least 1" does
    not hold without distinct positions, and no error is raised. *)
Theorem C55_coincident_refuted : exists points edges scale c, 0 < scale /\ valid_edges points edges /\
  distance_costs (fun _ => - 2 ^ 63)%Z points edges scale = Ok [c] /\ (c < - 2 ^ 62)%Z.
Proof.
  exists [(3, 4); (3, 4)], [(0, 1)%nat], 100, (- 2 ^ 63)%Z. split; [lra|].
  assert (V : valid_edges [(3, 4); (3, 4)] [(0, 1)%nat]) by (intros a b [H|[]]; injection H as <- <-; cbn; lia).
  split; [exact V|]. split; [|lia].
  destruct (C55_coincident (fun _ => - 2 ^ 63)%Z _ _ 100 V) as (costs & E & L & F). rewrite E. f_equal.
  specialize (F 0%nat 0%nat 1%nat). destruct costs as [|c [|]]; [discriminate| |discriminate]. f_equal. apply F; [cbn; lia| |]; reflexivity.
Qed.

(** ** Centroid costs *)
Theorem C55_centroid : forall junk g s points scale, planar g -> make_solver g = Ok s ->
  length points = g_npoints g -> 0 < scale ->
  (* cycles on the two sides of a link do not have the same centre *)
  (forall a b k k', (k < length (g_cycles g))%nat -> (k' < length (g_cycles g))%nat ->
     In (a, b) (sides (nth k (g_cycles g) [])) -> In (b, a) (sides (nth k' (g_cycles g) [])) ->
     forall c, is_centre (corners points (nth k (g_cycles g) [])) c ->
               is_centre (corners points (nth k' (g_cycles g) [])) c -> False) ->
  exists costs, centroid_costs junk points (g_cycles g) (s_dual s) scale = Ok costs /\
    length costs = length (g_links g) /\
    forall i a b, (i < length (g_links g))%nat -> nth i (g_links g) (0, 0)%nat = (a, b) ->
      (on_boundary g a b -> nth i costs 0%Z = 0%Z) /\
      (~ on_boundary g a b -> (1 <= nth i costs 0%Z)%Z /\
         exists k k' c c' d, (k < length (g_cycles g) /\ k' < length (g_cycles g))%nat /\
           In (a, b) (sides (nth k (g_cycles g) [])) /\ In (b, a) (sides (nth k' (g_cycles g) [])) /\
           is_centre (corners points (nth k (g_cycles g) [])) c /\ is_centre (corners points (nth k' (g_cycles g) [])) c' /\
           is_distance c c' d /\ nearest (1 + scale / d) (nth i costs 0%Z)).
Proof.
  intros junk g s points scale P M. apply (solver_of g s P) in M. rewrite M. apply centroid_costs_planar. exact P.
Qed.

(** Any dual edges, also those that the network does not contain: the number 0 stands
    for the grounding node in the second place only. In the first place it is the
    last cycle. *)
Theorem C55_dual_edges : forall junk points cycles dual scale,
  (forall c, In c cycles -> c <> [] /\ forall v, In v c -> (v < length points)%nat) -> (0 < length cycles)%nat ->
  (forall e, In e dual -> (fst e <= length cycles /\ snd e <= length cycles)%nat) ->
  exists costs, centroid_costs junk points cycles dual scale = Ok costs /\ length costs = length dual /\
    forall i j k, (i < length dual)%nat -> nth i dual (0, 0)%nat = (j, k) ->
      (k = 0%nat -> nth i costs 0%Z = 0%Z) /\
      (k <> 0%nat -> forall c c',
         is_centre (corners points (if (j =? 0)%nat then last cycles [] else nth (j - 1) cycles [])) c ->
         is_centre (corners points (nth (k - 1) cycles [])) c' -> c <> c' ->
         exists d, is_distance c c' d /\ nearest (1 + scale / d) (nth i costs 0%Z)).
Proof.
  intros junk points cycles dual scale V N D.
  assert (E : map_res (centroid points) cycles = Ok (map (fun c => mean_point (corners points c)) cycles)).
  { apply map_res_ok. intros c Hc. unfold centroid. destruct (V c Hc) as [_ Hv].
    rewrite (map_res_ok _ (pos points)); [reflexivity|]. intros v Hin. now apply index_pos, Hv. }
  unfold centroid_costs. rewrite E. cbn [bind]. clear E.
  set (cs := map _ cycles). set (cy j := if (j =? 0)%nat then last cycles [] else nth (j - 1) cycles []).
  assert (P : forall j, (j <= length cycles)%nat -> In (cy j) cycles /\ index_pred cs j = Ok (mean_point (corners points (cy j)))).
  { intros [|j] Hj; unfold cy; cbn [Nat.eqb index_pred].
    - destruct (exists_last (l := cycles)) as (l & c & Q); [destruct cycles; [cbn in N; lia|discriminate]|].
      rewrite Q, last_last. split; [apply in_or_app; right; left; reflexivity|].
      unfold cs. rewrite Q, map_app, rev_app_distr. reflexivity.
    - replace (S j - 1)%nat with j by lia. split; [apply nth_In; lia|]. apply index_some. unfold cs.
      rewrite nth_error_map, (nth_error_nth' cycles [] (n := j)) by lia. reflexivity. }
  clearbody cs.
  destruct (map_res_forall (fun e => if (snd e =? 0)%nat then Ok 0%Z
                    else do p <- index_pred cs (fst e); do q <- index_pred cs (snd e);
                         Ok (edge_cost junk scale (norm_diff p q)))
     (fun e z => (snd e = 0%nat -> z = 0%Z) /\ (snd e <> 0%nat -> forall c c',
         is_centre (corners points (cy (fst e))) c -> is_centre (corners points (nth (snd e - 1) cycles [])) c' -> c <> c' ->
         exists d, is_distance c c' d /\ nearest (1 + scale / d) z)) dual) as (costs & E & F).
  { intros [j k] He. destruct (D _ He) as [Hj Hk]. cbn [fst snd] in *. destruct (Nat.eqb_spec k 0) as [->|Hz].
    - exists 0%Z. split; [reflexivity|]. split; [reflexivity|]. intros H. contradiction.
    - destruct (P j Hj) as [I1 E1]. destruct (P k Hk) as [I2 E2]. rewrite E1, E2. cbn [bind]. eexists. split; [reflexivity|].
      split; [intros H; contradiction|]. intros _ c c' C1 C2 ne.
      assert (U : forall l p q, l <> [] -> is_centre l p -> is_centre l q -> p = q).
      { intros l [p1 p2] [q1 q2] Hl [A1 A2] [B1 B2]. cbn [fst snd] in *. rewrite <- B1 in A1. rewrite <- B2 in A2.
        assert (L : INR (length l) <> 0) by (apply not_0_INR; destruct l; [contradiction|discriminate]).
        apply Rmult_eq_reg_l in A1; [|exact L]. apply Rmult_eq_reg_l in A2; [|exact L]. now subst. }
      assert (Ne : forall x, In x cycles -> corners points x <> []).
      { intros x Hx. destruct (V x Hx) as [Q _]. unfold corners. destruct x; [contradiction|discriminate]. }
      assert (Ek : cy k = nth (k - 1) cycles []) by (unfold cy; now rewrite (proj2 (Nat.eqb_neq k 0) Hz)).
      rewrite <- Ek in C2.
      rewrite <- (U _ _ _ (Ne _ I1) C1 (mean_centre _ (Ne _ I1))), <- (U _ _ _ (Ne _ I2) C2 (mean_centre _ (Ne _ I2))).
      exists (norm_diff c c'). pose proof (norm_diff_distance c c') as ND. split; [exact ND|].
      unfold edge_cost. destruct (Req_EM_T (norm_diff c c') 0) as [Q|_]; [|apply rintR_nearest].
      exfalso. apply ne. apply (distance_zero _ _ _ ND). exact Q. }
  exists costs. split; [exact E|].
  assert (L : length costs = length dual) by (clear -F; induction F; cbn [length]; congruence). split; [exact L|].
  intros i j k Hi Ei.
  assert (G : forall (l : list (nat * nat)) (zs : list Z) Q, Forall2 Q l zs -> forall i, (i < length l)%nat -> Q (nth i l (0, 0)%nat) (nth i zs 0%Z)).
  { intros l zs Q W. induction W as [|x y l zs Hxy W IH]; intros [|n] Hn; cbn [length nth] in *; try lia; [exact Hxy|apply IH; lia]. }
  pose proof (G _ _ _ F i Hi) as K. rewrite Ei in K. exact K.
Qed.
Example C55_dual_edges_witness : let points := [(0, 0); (3, 0); (0, 3); (3, 7)] in let cycles := [[0; 1; 2]; [1; 3; 2]]%nat in
  (forall c, In c cycles -> c <> [] /\ forall v, In v c -> (v < length points)%nat) /\ (0 < length cycles)%nat /\
  (forall e, In e [(0, 1); (1, 0); (1, 2)]%nat -> (fst e <= length cycles /\ snd e <= length cycles)%nat).
Proof.
  cbv zeta. split; [|split; [cbn; lia|]].
  - intros c [<-|[<-|[]]]; (split; [discriminate|]); intros v Hv; cbn in Hv |- *; lia.
  - intros e [<-|[<-|[<-|[]]]]; cbn; lia.
Qed.

(** Triangles: it is enough that the points are distinct and no triangle is listed twice. *)
Theorem C55_triangles : forall g simplices points, planar g ->
  length points = g_npoints g -> NoDup points -> g_cycles g = map tri_cycle simplices ->
  (forall s s', In s simplices -> In s' simplices -> (forall v, In v (tri_cycle s) <-> In v (tri_cycle s')) -> s = s') ->
  forall a b k k', (k < length (g_cycles g))%nat -> (k' < length (g_cycles g))%nat ->
     In (a, b) (sides (nth k (g_cycles g) [])) -> In (b, a) (sides (nth k' (g_cycles g) [])) ->
     forall c, is_centre (corners points (nth k (g_cycles g) [])) c ->
               is_centre (corners points (nth k' (g_cycles g) [])) c -> False.
Proof. exact triangle_centres. Qed.

(** ** The temporal graph *)
Definition real_points (l : list (nat * nat)) : list (R * R) := map (fun p => (INR (fst p), INR (snd p))) l.

Lemma hop3_real_length n : length (real_points (hop3_points n)) = n.
Proof. unfold real_points, hop3_points. rewrite !map_length, seq_length. reflexivity. Qed.

Lemma hop3_real_pos n v : (v < n)%nat -> pos (real_points (hop3_points n)) v = (INR v, 0).
Proof.
  intros H. unfold pos, real_points, hop3_points. rewrite map_map. cbn [fst snd].
  rewrite (nth_indep _ (0, 0) ((fun i => (INR i, INR 0)) 0%nat)) by (rewrite map_length, seq_length; exact H).
  rewrite (map_nth (fun i => (INR i, INR 0))), seq_nth by exact H. reflexivity.
Qed.

Lemma hop3_real_NoDup n : NoDup (real_points (hop3_points n)).
Proof.
  apply (NoDup_nth _ (0, 0)). intros i j Hi Hj E. rewrite hop3_real_length in Hi, Hj.
  pose proof (hop3_real_pos n i Hi) as A. pose proof (hop3_real_pos n j Hj) as B. unfold pos in A, B. rewrite A, B in E.
  injection E as E. apply INR_eq. exact E.
Qed.

Lemma sumZ_le_bound (l : list Z) B : (forall x, In x l -> IZR x <= B) -> IZR (sumZ l) <= INR (length l) * B.
Proof.
  induction l as [|a l IH]; intros H; [cbn; lra|]. rewrite sumZ_cons, plus_IZR. cbn [length]. rewrite S_INR.
  assert (IZR a <= B) by (apply H; left; reflexivity). assert (IZR (sumZ l) <= INR (length l) * B) by (apply IH; intros x Hx; apply H; right; exact Hx). lra.
Qed.

(** Distance costs of the epochs: never an error, bounded by the scale. *)
Theorem C55_hop3 : forall junk n scale, (4 <= n)%nat -> 0 < scale ->
  exists g costs, hop3 (Z.of_nat n) = Ok g /\
    distance_costs junk (real_points (hop3_points n)) (g_links g) scale = Ok costs /\
    length costs = length (g_links g) /\ length (g_links g) = (3 * n - 6)%nat /\
    (forall i a b, (i < length (g_links g))%nat -> nth i (g_links g) (0, 0)%nat = (a, b) ->
       nearest (1 + scale / INR (b - a)) (nth i costs 0%Z)) /\
    (forall x, In x costs -> (1 <= x)%Z /\ IZR x <= scale + 3 / 2) /\
    IZR (sumZ costs) <= INR (3 * n - 6) * (scale + 3 / 2).
Proof.
  intros junk n scale Hn S. exists (hop3_graph n).
  assert (In_iff : forall a b, In (a, b) (g_links (hop3_graph n)) -> (a < b < n)%nat) by
    (intros a b H; apply hop3_link_list_In in H; [lia|exact Hn]).
  destruct (C55_distance junk (real_points (hop3_points n)) (g_links (hop3_graph n)) scale S) as (costs & E & L & F).
  { intros a b H. apply In_iff in H. rewrite hop3_real_length. lia. }
  { intros a b H. apply In_iff in H. rewrite !hop3_real_pos by lia. intros C. injection C as C. apply INR_eq in C. lia. }
  exists costs. split; [apply hop3_ok; exact Hn|]. split; [exact E|]. split; [exact L|].
  assert (LL : length (g_links (hop3_graph n)) = (3 * n - 6)%nat) by (apply hop3_link_list_length; exact Hn).
  split; [exact LL|].
  assert (K : forall i a b, (i < length (g_links (hop3_graph n)))%nat -> nth i (g_links (hop3_graph n)) (0, 0)%nat = (a, b) ->
       (a < b < n)%nat /\ (1 <= nth i costs 0%Z)%Z /\ nearest (1 + scale / INR (b - a)) (nth i costs 0%Z)).
  { intros i a b Hi Ei. destruct (F i a b Hi Ei) as (P & d & D & N).
    assert (Hab : (a < b < n)%nat) by (apply In_iff; rewrite <- Ei; apply nth_In; exact Hi).
    split; [exact Hab|]. split; [exact P|]. assert (Q : d = INR (b - a)); [|rewrite <- Q; exact N].
    apply (distance_unique _ _ _ _ D). rewrite !hop3_real_pos by lia. unfold is_distance. cbn [fst snd].
    rewrite minus_INR by lia. split; [|ring]. assert (INR a <= INR b) by (apply le_INR; lia). lra. }
  split; [intros i a b Hi Ei; apply (K i a b Hi Ei)|].
  assert (B : forall x, In x costs -> (1 <= x)%Z /\ IZR x <= scale + 3 / 2).
  { intros x Hx. apply (In_nth _ _ 0%Z) in Hx as (i & Hi & <-). rewrite L in Hi.
    destruct (nth i (g_links (hop3_graph n)) (0, 0)%nat) as [a b] eqn:Ei. destruct (K i a b Hi Ei) as (Hab & P & [N _]).
    split; [exact P|]. assert (D1 : 1 <= INR (b - a)) by (change 1 with (INR 1); apply le_INR; lia).
    assert (scale / INR (b - a) <= scale).
    { rewrite <- (Rmult_1_r scale) at 2. unfold Rdiv. apply Rmult_le_compat_l; [lra|].
      rewrite <- Rinv_1. apply Rinv_le_contravar; lra. }
    lra. }
  split; [exact B|]. rewrite <- LL, <- L. apply sumZ_le_bound. intros x Hx. apply B. exact Hx.
Qed.

(** Centroid costs of the epochs: never an error either. *)
Theorem C55_hop3_centroid : forall junk n scale, (4 <= n)%nat -> 0 < scale ->
  exists g s costs, hop3 (Z.of_nat n) = Ok g /\ make_solver g = Ok s /\
    centroid_costs junk (real_points (hop3_points n)) (g_cycles g) (s_dual s) scale = Ok costs /\
    length costs = length (g_links g) /\
    forall i a b, (i < length (g_links g))%nat -> nth i (g_links g) (0, 0)%nat = (a, b) ->
      (on_boundary g a b -> nth i costs 0%Z = 0%Z) /\ (~ on_boundary g a b -> (1 <= nth i costs 0%Z)%Z).
Proof.
  intros junk n scale Hn S. exists (hop3_graph n), (dual_solver (hop3_graph n)).
  assert (P : planar (hop3_graph n)) by (apply hop3_planar; exact Hn).
  destruct (centroid_costs_planar junk (hop3_graph n) (real_points (hop3_points n)) scale P) as (costs & E & L & F).
  - apply hop3_real_length.
  - exact S.
  - apply (triangle_centres (hop3_graph n) (hop3_cycles n) _ P); [apply hop3_real_length|apply hop3_real_NoDup|reflexivity|].
    intros s s' Hs Hs' HI. apply hop3_cycles_In in Hs, Hs'; try exact Hn.
    destruct s as [[x y] z], s' as [[x' y'] z']. cbn [tri_cycle In] in HI.
    pose proof (HI x). pose proof (HI y). pose proof (HI z). pose proof (HI x'). pose proof (HI y'). pose proof (HI z'). clear HI.
    destruct Hs as [Hs|[Hs|[Hs|(ii & Hi & [Hs|Hs])]]]; injection Hs as -> -> ->;
    destruct Hs' as [Hs'|[Hs'|[Hs'|(jj & Hj & [Hs'|Hs'])]]]; injection Hs' as -> -> ->; try reflexivity;
      try (exfalso; lia); repeat f_equal; lia.
  - exists costs. split; [apply hop3_ok; exact Hn|]. split; [apply planar_solver; exact P|]. split; [exact E|]. split; [exact L|].
    intros i a b Hi Ei. destruct (F i a b Hi Ei) as [F1 F2]. split; [exact F1|]. intros B. apply F2, B.
Qed.

(** ** Together with C22: with distance costs in time and in space, an SLC stack is always unwrapped. *)
Theorem C55_unwraps : forall junk smcf gs points nt tscale sscale, smcf_sound smcf -> smcf_complete smcf ->
  planar gs -> length points = g_npoints gs -> NoDup points -> (4 <= nt)%nat -> 0 < tscale -> 0 < sscale ->
  2 * (INR (3 * nt - 6) * (tscale + 3 / 2)) + 2 <= IZR int32_max ->
  exists gt tcosts scosts, hop3 (Z.of_nat nt) = Ok gt /\
    distance_costs junk (real_points (hop3_points nt)) (g_links gt) tscale = Ok tcosts /\
    distance_costs junk points (g_links gs) sscale = Ok scosts /\
    forall tsched ssched cpu e c,
      make_solver gs = Ok (em_space e) -> make_solver gt = Ok (em_time e) ->
      t_cost_type (em_set e) = Distance -> s_cost_type (em_set e) = Distance ->
      em_tdist e = tcosts -> em_sdist e = scosts ->
      (forall b l, Permutation (tsched b l) l) -> (forall l, Permutation (ssched l) l) ->
      (0 < links_per_batch (em_set e))%nat -> cu_ndim c = 2%Z -> cu_time_dim c = 0%Z ->
      length (cu_data c) = nt -> stack (cu_data c) (g_npoints gs) ->
      (1 <= space_workers (s_worker_count (em_set e)) cpu)%Z ->
      exists U, unwrap_cube smcf tsched ssched cpu e c = Ok U.
Proof.
  intros junk smcf gs points nt tscale sscale Hs Hc P L ND Hn T S B.
  destruct (C55_hop3 junk nt tscale Hn T) as (gt & tcosts & Eg & Et & Lt & _ & _ & Bt & St).
  assert (Egt : gt = hop3_graph nt) by (rewrite hop3_ok in Eg by exact Hn; injection Eg as <-; reflexivity).
  assert (Pt : planar gt) by (rewrite Egt; apply hop3_planar; exact Hn).
  destruct (C55_distance junk points (g_links gs) sscale S) as (scosts & Es & Ls & _).
  { intros a b H. apply (pl_lt gs P) in H. lia. }
  { intros a b H. apply (pl_lt gs P) in H. intros Q. apply (proj1 (NoDup_nth points (0, 0)) ND) in Q; lia. }
  exists gt, tcosts, scosts. split; [exact Eg|]. split; [exact Et|]. split; [exact Es|].
  intros tsched ssched cpu e c Ms Mt Ct Cs Dt Ds Hts Hss Hl H2 H0 HL Hst Hw.
  apply (C22_returns smcf gs gt tsched ssched cpu e c false tcosts scosts Hs Hc P Pt Ms Mt Hts Hss Hl).
  - unfold classify. rewrite H2, H0. cbn [negb Z.eqb]. apply (solver_of gt _ Pt) in Mt.
    unfold em_nepochs. rewrite Mt. cbn [dual_solver s_graph]. rewrite HL, Egt. cbn [hop3_graph g_npoints]. rewrite Nat.eqb_refl. reflexivity.
  - exact Hst.
  - apply C21_slc_consistent.
  - rewrite Ct. cbn [pick_cost]. rewrite Dt. reflexivity.
  - rewrite Cs. cbn [pick_cost]. rewrite Ds. reflexivity.
  - exact Lt.
  - exact Ls.
  - intros x Hx. apply Bt. exact Hx.
  - apply le_IZR. rewrite plus_IZR, mult_IZR. lra.
  - exact Hw.
Qed.

(** ** The documented formula "1 + distance / scale" is not what is computed. *)
Theorem C55_docstring_refuted : forall junk, exists points edges scale c d, 0 < scale /\
  distance_costs junk points edges scale = Ok [c] /\ edges = [(0, 1)%nat] /\
  is_distance (pos points 0) (pos points 1) d /\ ~ nearest (1 + d / scale) c.
Proof.
  intros junk. exists [(0, 0); (3, 4)], [(0, 1)%nat], 100, 21%Z, 5. split; [lra|].
  assert (D : is_distance (0, 0) (3, 4) 5) by (split; cbn [fst snd]; lra).
  split; [|split; [reflexivity|split; [exact D|intros [N _]; lra]]].
  unfold distance_costs. cbn [map_res fst snd index nth_error bind].
  rewrite (distance_unique _ _ _ _ (norm_diff_distance _ _) D). unfold edge_cost.
  destruct (Req_EM_T 5 0) as [C|_]; [lra|]. cbn [bind].
  rewrite (nearest_unique _ _ 21%Z (rintR_nearest (1 + 100 / 5))); [reflexivity|].
  replace (1 + 100 / 5) with (IZR 21) by (lra). apply nearest_int.
Qed.

(** ** Examples *)
Lemma cost_345 junk : edge_cost junk 100 (norm_diff (0, 0) (3, 4)) = 21%Z.
Proof.
  assert (D : is_distance (0, 0) (3, 4) 5) by (split; cbn [fst snd]; lra).
  rewrite (distance_unique _ _ _ _ (norm_diff_distance _ _) D). unfold edge_cost.
  destruct (Req_EM_T 5 0) as [C|_]; [lra|].
  rewrite (nearest_unique _ _ 21%Z (rintR_nearest (1 + 100 / 5))); [reflexivity|].
  replace (1 + 100 / 5) with (IZR 21) by lra. apply nearest_int.
Qed.
Lemma cost_far junk : edge_cost junk 100 (norm_diff (3, 4) (3, 44)) = 4%Z.
Proof.
  assert (D : is_distance (3, 4) (3, 44) 40) by (split; cbn [fst snd]; lra).
  rewrite (distance_unique _ _ _ _ (norm_diff_distance _ _) D). unfold edge_cost.
  destruct (Req_EM_T 40 0) as [C|_]; [lra|].
  (* 1 + 100 / 40 = 3.5, a tie: the even neighbour *)
  rewrite (nearest_unique _ _ 4%Z (rintR_nearest (1 + 100 / 40))); [reflexivity|].
  split; [lra|]. intros _. reflexivity.
Qed.
Example C55_witness junk : distance_costs junk [(0, 0); (3, 4); (3, 44)] [(0, 1); (1, 2)]%nat 100 = Ok [21; 4]%Z
  /\ distance_costs junk [(0, 0); (3, 4); (3, 4)] [(0, 1); (1, 2)]%nat 100 = Ok [21%Z; junk 100].
Proof.
  split; unfold distance_costs; cbn [map_res fst snd index nth_error bind]; rewrite cost_345; [rewrite cost_far; reflexivity|].
  unfold edge_cost. destruct (Req_EM_T (norm_diff (3, 4) (3, 4)) 0) as [_|NZ]; [reflexivity|].
  exfalso. apply NZ. apply (distance_zero _ _ _ (norm_diff_distance (3, 4) (3, 4))). reflexivity.
Qed.
(** Two triangles: a boundary link costs nothing; the centres are sqrt(58) / 3 apart. *)
Example C55_centroid_witness junk :
  centroid_costs junk [(0, 0); (3, 0); (0, 3); (3, 7)] [[0; 1; 2]; [1; 3; 2]]%nat [(1, 0); (1, 2); (1, 0); (2, 0); (2, 0)]%nat 100
  = Ok [0; 40; 0; 0; 0]%Z.
Proof.
  unfold centroid_costs, centroid. cbn [map_res index nth_error bind fst snd Nat.eqb index_pred].
  set (p := mean_point [(0, 0); (3, 0); (0, 3)]). set (q := mean_point [(3, 0); (3, 7); (0, 3)]).
  assert (Ep : p = (1, 1)) by (unfold p, mean_point; cbn [map fold_right length fst snd INR]; f_equal; lra).
  assert (Eq : q = (2, 10 / 3)) by (unfold q, mean_point; cbn [map fold_right length fst snd INR]; f_equal; lra).
  rewrite Ep, Eq.
  assert (N : nearest (1 + 100 / norm_diff (1, 1) (2, 10 / 3)) 40).
  { destruct (norm_diff_distance (1, 1) (2, 10 / 3)) as [P E]. cbn [fst snd] in E. set (d := norm_diff _ _) in *. clearbody d.
    assert (Ed : d * d = 58 / 9) by lra.
    assert (L : 2.538 < d) by (apply Rnot_le_lt; intros C; assert (d * d <= 2.538 * 2.538) by (apply Rmult_le_compat; lra); lra).
    assert (U : d < 2.54) by (apply Rnot_le_lt; intros C; assert (2.54 * 2.54 <= d * d) by (apply Rmult_le_compat; lra); lra).
    assert (A : 100 / d < 39.5) by (apply Rmult_lt_reg_r with d; [lra|]; unfold Rdiv; rewrite Rmult_assoc, Rinv_l by lra; lra).
    assert (B : 38.5 < 100 / d) by (apply Rmult_lt_reg_r with d; [lra|]; unfold Rdiv; rewrite Rmult_assoc, Rinv_l by lra; lra).
    split; [lra|]. intros [C|C]; lra. }
  unfold edge_cost. destruct (Req_EM_T (norm_diff (1, 1) (2, 10 / 3)) 0) as [Z|NZ].
  - exfalso. apply (distance_zero _ _ _ (norm_diff_distance (1, 1) (2, 10 / 3))) in Z. injection Z as Z _. lra.
  - rewrite (nearest_unique _ _ 40%Z (rintR_nearest _) N). reflexivity.
Qed.
(** A thousand epochs at the default scale are within the bound. *)
Example C55_unwraps_room : 2 * (INR (3 * 1000 - 6) * (100 + 3 / 2)) + 2 <= IZR int32_max.
Proof.
  replace (INR (3 * 1000 - 6)) with 2994; [unfold int32_max; lra|]. rewrite INR_IZR_INZ. f_equal.
Qed.

Print Assumptions C55_distance.
Print Assumptions C55_monotone.
Print Assumptions C55_coincident.
Print Assumptions C55_coincident_refuted.
Print Assumptions C55_centroid.
Print Assumptions C55_dual_edges.
Print Assumptions C55_triangles.
Print Assumptions C55_hop3.
Print Assumptions C55_hop3_centroid.
Print Assumptions C55_unwraps.
Print Assumptions C55_docstring_refuted.
