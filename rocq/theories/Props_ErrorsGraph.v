(** C74, graphs, network flow and link models: which exception is raised, and
    exactly when. *)
From Verif Require Import Base TileModel GraphModel McfModel EmcfModel CostModel LinksModel Reg2DProofs Props_ErrorsMerge.
From Coq Require Import List Lia ZifyBool Reals.
Import ListNotations.
Set Default Goal Selector "!".
Local Open Scope nat_scope.

(** * graph *)

(** A grid with rows but no columns, or the reverse, cannot be built; one without
    pixels at all can. *)
Theorem C74_grid h w e : reg2d h w = Err e <-> (h = 0 /\ w <> 0 \/ h <> 0 /\ w = 0) /\ e = ValueError.
Proof.
  destruct (le_lt_dec 1 h) as [Hh|Hh]; [destruct (le_lt_dec 1 w) as [Hw|Hw]|].
  - rewrite reg2d_ok by assumption. split; [discriminate|lia].
  - unfold reg2d, reg2d_links, fill. replace (_ <? 0)%Z with true by nia. cbn [bind].
    split; [intros [= <-]; split; [lia|reflexivity]|intros [_ ->]; reflexivity].
  - replace h with 0 by lia. clear h Hh. destruct w as [|w]; [cbn; split; [discriminate|lia]|].
    unfold reg2d, reg2d_links, fill. replace (_ <? 0)%Z with true by lia. cbn [bind].
    split; [intros [= <-]; split; [lia|reflexivity]|intros [_ ->]; reflexivity].
Qed.
Theorem C74_boundary h w e : reg2d_boundary h w = Err e <->
  (h = 0 \/ w = 0) /\ (h + w < 2 /\ e = ValueError \/ 2 <= h + w /\ e = IndexError).
Proof.
  unfold reg2d_boundary, fill.
  match goal with |- context [Z.of_nat (length ?r)] => assert (length r = 2 * (w - 1) + 2 * (h - 1)) as L end.
  { rewrite !app_length, !map_length, !rev_length, !seq_length. lia. }
  rewrite L. clear L.
  destruct (Z.ltb_spec (2 * (Z.of_nat h + Z.of_nat w - 2)) 0) as [H|H]; cbn [bind].
  { split; [intros [= <-]; split; [lia|left; split; [lia|reflexivity]]|intros (_ & [[_ ->]|H'])]; [reflexivity|lia]. }
  destruct (Z.leb_spec (Z.of_nat (2 * (w - 1) + 2 * (h - 1))) (2 * (Z.of_nat h + Z.of_nat w - 2))) as [K|K]; cbn [bind].
  - destruct (Z.eqb_spec (Z.of_nat (2 * (w - 1) + 2 * (h - 1))) (2 * (Z.of_nat h + Z.of_nat w - 2))) as [E|E].
    + split; [discriminate|lia].
    + lia.
  - split; [intros [= <-]; split; [lia|right; split; [lia|reflexivity]]|intros (_ & [H'|[_ ->]])]; [lia|reflexivity].
Qed.
Example C74_grid_witness : reg2d 0 3 = Err ValueError /\ reg2d_boundary 0 3 = Err IndexError /\ reg2d_boundary 1 0 = Err ValueError /\
  (exists g, reg2d 2 2 = Ok g) /\ (exists b, reg2d_boundary 2 2 = Ok b).
Proof. repeat split; eexists; reflexivity. Qed.

Theorem C74_laplacian links e : graph_laplacian links = Err e <-> links = [] /\ e = ValueError.
Proof. destruct links; cbn; split; try discriminate; [intros [= <-]; auto|intros [_ ->]; reflexivity|intros [H _]; discriminate]. Qed.


(** * mcf *)

Theorem C74_max_point links e : max_point links = Err e <-> links = [] /\ e = ValueError.
Proof. destruct links; cbn; split; try discriminate; [intros [= <-]; auto|intros [_ ->]; reflexivity|intros [H _]; discriminate]. Qed.
Example C74_max_point_witness : graph_laplacian [] = Err ValueError /\ max_point [] = Err ValueError /\
  max_point [(0, 1); (3, 2)] = Ok 4 /\ exists l, graph_laplacian [(0, 1)] = Ok l.
Proof. repeat split. eexists. reflexivity. Qed.

(** Residues: another number of points, no cycle, a cycle through a point that
    does not exist. *)
Theorem C74_residues s p e : let g := s_graph s in compute_residues s p = Err e <->
  (length p <> g_npoints g /\ e = ValueError) \/
  (length p = g_npoints g /\ (g_cycles g = [] \/ exists c v, In c (g_cycles g) /\ In v c /\ g_npoints g <= v) /\ e = IndexError).
Proof.
  cbv zeta. set (g := s_graph s). unfold compute_residues. fold g.
  destruct (Nat.eqb_spec (length p) (g_npoints g)) as [L|L]; cbn [negb].
  2:{ split; [intros [= <-]; auto|intros [[_ ->]|(H & _)]; tauto]. }
  unfold cycle_length. destruct (g_cycles g) as [|c0 ct] eqn:Ec; cbn [bind].
  { split; [intros [= <-]; right; auto|intros [[H _]|(_ & _ & ->)]; tauto]. }
  rewrite <- Ec. assert (g_cycles g <> []) as N by (rewrite Ec; discriminate). clear Ec.
  destruct (existsb _ (g_cycles g)) eqn:E.
  - apply existsb_exists in E. destruct E as (c & Hc & E). apply existsb_exists in E. destruct E as (v & Hv & E).
    apply Nat.leb_le in E. split; [intros [= <-]|intros [[H _]|(_ & _ & ->)]; tauto].
    right. split; [exact L|]. split; [|reflexivity]. right. exists c, v. auto.
  - split; [discriminate|]. intros [[H _]|(_ & [H|(c & v & Hc & Hv & H)] & _)]; [tauto|tauto|].
    apply existsb_no with (x := c) in E; [|exact Hc]. apply existsb_no with (x := v) in E; [|exact Hv]. lia.
Qed.
Example C74_residues_witness : let s g := Solver g [] [] in
  compute_residues (s (Graph 3 [] [[0; 1; 2]])) [1; 2]%Q = Err ValueError /\
  compute_residues (s (Graph 2 [] [])) [1; 2]%Q = Err IndexError /\
  compute_residues (s (Graph 2 [] [[0; 1; 2]])) [1; 2]%Q = Err IndexError /\
  exists r, compute_residues (s (Graph 3 [] [[0; 1; 2]])) [1; 2; 3]%Q = Ok r.
Proof. repeat split. eexists. reflexivity. Qed.

(** The flow problem: residues that do not cancel or costs of another length are
    ValueErrors, a solver without an optimum is a RuntimeError. *)
Theorem C74_flow smcf dual dir r cost rev e : solve_mcf smcf dual dir r cost rev = Err e <->
  ((sumZ r <> 0%Z \/ length cost <> length dual \/ length rev <> length dual) /\ e = ValueError) \/
  (sumZ r = 0%Z /\ length cost = length dual /\ length rev = length dual /\
   smcf (mcf_arcs dual (map fst dir) cost rev) r = None /\ e = RuntimeError).
Proof.
  unfold solve_mcf. destruct (Z.eqb_spec (sumZ r) 0) as [S|S]; cbn [negb].
  2:{ split; [intros [= <-]; auto|intros [[_ ->]|(H & _)]; tauto]. }
  destruct ((length cost =? length dual) && (length rev =? length dual)) eqn:L; cbn [negb].
  - assert (length cost = length dual /\ length rev = length dual) as [L1 L2] by lia.
    destruct (smcf _ r) eqn:M.
    + split; [discriminate|]. intros [[H _]|(_ & _ & _ & H & _)]; [tauto|congruence].
    + split; [intros [= <-]; right; auto|intros [[H _]|(_ & _ & _ & _ & ->)]; tauto].
  - split; [intros [= <-]; left; split; [lia|reflexivity]|intros [[_ ->]|(_ & H1 & H2 & _)]; [reflexivity|lia]].
Qed.
Example C74_flow_witness : let dual := [(0, 1); (1, 2)] in let dir := [(1, -1); (1, -1)]%Z in
  (forall o, solve_mcf o dual dir [1; 0; 0]%Z [1; 1]%Z [1; 1]%Z = Err ValueError) /\
  (forall o, solve_mcf o dual dir [1; -1; 0]%Z [1]%Z [1; 1]%Z = Err ValueError) /\
  solve_mcf (fun _ _ => None) dual dir [1; -1; 0]%Z [1; 1]%Z [1; 1]%Z = Err RuntimeError /\
  exists f, solve_mcf (fun _ _ => Some [1; 0; 0; 0]%Z) dual dir [1; -1; 0]%Z [1; 1]%Z [1; 1]%Z = Ok f.
Proof. repeat split. eexists. reflexivity. Qed.

(** Costs of links: a point that does not exist. *)
Theorem C74_index {A} (l : list A) i e : index l i = Err e <-> length l <= i /\ e = IndexError.
Proof.
  unfold index. destruct (nth_error l i) eqn:E.
  - split; [discriminate|]. intros [H _]. apply nth_error_None in H. congruence.
  - apply nth_error_None in E. split; [intros [= <-]; auto|intros [_ ->]; reflexivity].
Qed.
Theorem C74_distance junk pts edges scale e : distance_costs junk pts edges scale = Err e <->
  e = IndexError /\ exists a b, In (a, b) edges /\ length pts <= Nat.max a b.
Proof.
  unfold distance_costs.
  set (f := fun ab : nat * nat => _).
  assert (forall a b e, f (a, b) = Err e <-> length pts <= Nat.max a b /\ e = IndexError) as F.
  { intros a b e'. unfold f. cbn [fst snd]. destruct (index pts a) as [p|x] eqn:A; cbn [bind].
    - assert (a < length pts) as La by (destruct (le_lt_dec (length pts) a); [|assumption]; assert (index pts a = Err IndexError) by (apply C74_index; auto); congruence).
      destruct (index pts b) as [q|y] eqn:B; cbn [bind].
      + assert (b < length pts) as Lb by (destruct (le_lt_dec (length pts) b); [|assumption]; assert (index pts b = Err IndexError) by (apply C74_index; auto); congruence).
        split; [discriminate|lia].
      + apply C74_index in B. destruct B as [B ->]. split; [intros [= <-]; split; [lia|reflexivity]|intros [_ ->]; reflexivity].
    - apply C74_index in A. destruct A as [A ->]. split; [intros [= <-]; split; [lia|reflexivity]|intros [_ ->]; reflexivity]. }
  split.
  - intros H. apply map_res_err in H. destruct H as ([a b] & Hab & H). apply F in H. destruct H as [H ->]. split; [reflexivity|]. exists a, b. auto.
  - intros (-> & a & b & Hab & H). destruct (map_res_fails f edges (a, b) IndexError Hab) as (e' & E); [apply F; auto|].
    rewrite E. f_equal. apply map_res_err in E. destruct E as ([c d] & _ & E). apply F in E. tauto.
Qed.
Example C74_distance_witness : forall junk, distance_costs junk [(0, 0); (1, 0)]%R [(0, 1); (0, 2)] 1%R = Err IndexError /\
  exists c, distance_costs junk [(0, 0); (1, 0)]%R [(0, 1)] 1%R = Ok c.
Proof. repeat split. eexists. reflexivity. Qed.

(** * emcf *)

Theorem C74_cost ct n dist cent e : pick_cost ct n dist cent = Err e <-> ct = OtherCost /\ e = ValueError.
Proof. destruct ct; cbn; split; try discriminate; try (intros [H _]; discriminate); [intros [= <-]; auto|intros [_ ->]; reflexivity]. Qed.

(** Without a worker the spatial step is a ValueError, whatever the data. *)
Theorem C74_workers smcf sched cpu e grad :
  s_cost_type (em_set e) = OtherCost \/ (s_worker_count (em_set e) < 1 /\ cpu <= 1)%Z ->
  unwrap_gradients_in_space smcf sched cpu e grad = Err ValueError.
Proof.
  intros H. unfold unwrap_gradients_in_space.
  destruct (pick_cost _ _ _ _) as [c|x] eqn:P; cbn [bind].
  - destruct H as [H|H]; [rewrite H in P; discriminate|]. unfold space_workers.
    destruct (Z.ltb_spec (s_worker_count (em_set e)) 1); [|lia]. destruct (Z.leb_spec (cpu - 1) 0); [reflexivity|lia].
  - apply C74_cost in P. destruct P as [_ ->]. reflexivity.
Qed.
Example C74_workers_witness : forall smcf sched s t grad,
  let e ct sw := Emcf s t (Settings Constant ct 1 1 sw) [] [] [] [] in
  unwrap_gradients_in_space smcf sched 8 (e OtherCost 2%Z) grad = Err ValueError /\
  unwrap_gradients_in_space smcf sched 1 (e Constant 0%Z) grad = Err ValueError.
Proof. intros. split; apply C74_workers; cbn; auto. right. lia. Qed.

(** * links *)

Theorem C74_link_model {range} (a : mat) (rg : list range) e : link_model_init a rg = Err e <-> m_ncol a <> length rg /\ e = ValueError.
Proof.
  unfold link_model_init. destruct (Nat.eqb_spec (m_ncol a) (length rg)).
  - split; [discriminate|tauto].
  - split; [intros [= <-]; auto|intros [_ ->]; reflexivity].
Qed.
Theorem C74_default_weights {range} (m : link_model range) e : default_weights m = Err e <-> nobs m = 0 /\ e = ZeroDivisionError.
Proof.
  unfold default_weights. destruct (Nat.eqb_spec (nobs m) 0).
  - split; [intros [= <-]; auto|intros [_ ->]; reflexivity].
  - split; [discriminate|tauto].
Qed.
Theorem C74_dot a x e : mat_dot a x = Err e <-> length x <> m_ncol a /\ e = ValueError.
Proof.
  unfold mat_dot. destruct (Nat.eqb_spec (length x) (m_ncol a)).
  - split; [discriminate|tauto].
  - split; [intros [= <-]; auto|intros [_ ->]; reflexivity].
Qed.
Theorem C74_t_dot a y e : mat_t_dot a y = Err e <-> length y <> m_nrow a /\ e = ValueError.
Proof.
  unfold mat_t_dot. destruct (Nat.eqb_spec (length y) (m_nrow a)).
  - split; [discriminate|tauto].
  - split; [intros [= <-]; auto|intros [_ ->]; reflexivity].
Qed.
Theorem C74_bcast f a b e : bcast f a b = Err e <-> length a <> length b /\ length a <> 1 /\ length b <> 1 /\ e = ValueError.
Proof.
  unfold bcast. destruct (Nat.eqb_spec (length a) (length b)) as [L|L].
  { split; [discriminate|tauto]. }
  destruct a as [|x [|x' a]]; destruct b as [|y [|y' b]]; cbn [length] in *;
    split; try discriminate; try lia; try (intros [= <-]; repeat split; lia); intros (_ & _ & _ & ->); reflexivity.
Qed.

(** One link: only the weights can be wrong, when the search does not fail. *)
Theorem C74_estimate {range} (brute : mat -> list range -> vec -> weights -> res (vec * R)) m d w e :
  (forall a rg d w, exists r, brute a rg d w = Ok r) ->
  estimate_model brute m d w = Err e <->
  (w = None /\ nobs m = 0 /\ e = ZeroDivisionError) \/
  ((exists l, w = Some (W1 l) /\ length l <> length d) \/ (exists l, w = Some (W2 l))) /\ e = ValueError.
Proof.
  intros B. assert (forall a rg d w e, solve brute a rg d w <> Err e) as S.
  { intros a rg d' w' e'. unfold solve. destruct (B a rg d' w') as (r & ->). discriminate. }
  unfold estimate_model. destruct w as [[x|l|l]|]; cbn [bind].
  - split; [intros H; destruct (S _ _ _ _ _ H)|]. intros [(H & _)|[[(l & H & _)|(l & H)] _]]; discriminate.
  - destruct (Nat.eqb_spec (length l) (length d)).
    + split; [intros H; destruct (S _ _ _ _ _ H)|]. intros [(H & _)|[[(l' & [= <-] & H)|(l' & H)] _]]; [discriminate|tauto|discriminate].
    + split; [intros [= <-]; right; split; [left; exists l; auto|reflexivity]|intros [(H & _)|[_ ->]]; [discriminate|reflexivity]].
  - split; [intros [= <-]; right; split; [right; exists l; auto|reflexivity]|intros [(H & _)|[_ ->]]; [discriminate|reflexivity]].
  - destruct (default_weights m) as [w|x] eqn:D; cbn [bind].
    + assert (nobs m <> 0) as N.
      { intros H. assert (default_weights m = Err ZeroDivisionError) by (apply C74_default_weights; auto). congruence. }
      unfold default_weights in D. destruct (Nat.eqb_spec (nobs m) 0); [tauto|]. injection D as <-.
      split; [intros H; destruct (S _ _ _ _ _ H)|]. intros [(_ & H & _)|[[(l' & H & _)|(l' & H)] _]]; [tauto|discriminate|discriminate].
    + apply C74_default_weights in D. destruct D as [D ->].
      split; [intros [= <-]; auto|intros [(_ & _ & ->)|[[(l' & H & _)|(l' & H)] _]]; [reflexivity|discriminate|discriminate]].
Qed.
Example C74_links_witness : let b (a : mat) (rg : list nat) (d : vec) (w : weights) := Ok ([0%R], 0%R) in
  let m := LinkModel (Mat [[1%R]; [2%R]] 1) [7] in
  link_model_init (Mat [[1%R]] 1) [7; 8] = Err ValueError /\
  estimate_model b (LinkModel (Mat [] 1) [7]) [] None = Err ZeroDivisionError /\
  estimate_model b m [1%R; 2%R] (Some (W1 [1%R])) = Err ValueError /\
  estimate_model b m [1%R; 2%R] (Some (W2 (Mat [] 0))) = Err ValueError /\
  exists r, estimate_model b m [1%R; 2%R] (Some (W1 [1%R; 1%R])) = Ok r.
Proof. repeat split. eexists. reflexivity. Qed.

(** The density tiler refuses a shape without a positive side and a request for no
    tiles, but not a shape with only one positive side. *)
Theorem C74_density pick pts h w n :
  (((h <= 0 /\ w <= 0)%Z \/ (n <= 0)%Z -> create_tiles_density pick pts (h, w) n = Err ValueError)) /\
  ((0 < h \/ 0 < w)%Z -> (1 <= n <= 3)%Z -> create_tiles_density pick pts (h, w) n = Ok (single_tile (h, w))).
Proof.
  unfold create_tiles_density. cbn [fst snd]. split.
  - intros H. destruct (Z.leb_spec h 0), (Z.leb_spec w 0), (Z.leb_spec n 0); cbn [andb]; try reflexivity; lia.
  - intros H Hn. replace ((h <=? 0)%Z && (w <=? 0)%Z) with false by lia. replace (n <=? 0)%Z with false by lia.
    assert (n = 1 \/ n = 2 \/ n = 3)%Z as [->|[->| ->]] by lia; reflexivity.
Qed.
Example C74_density_witness pick : create_tiles_density pick [] (-3, 0)%Z 4 = Err ValueError /\
  create_tiles_density pick [] (5, 5)%Z 0 = Err ValueError /\ create_tiles_density pick [] (-3, 5)%Z 3 = Ok (single_tile (-3, 5)%Z).
Proof. repeat split. Qed.

Print Assumptions C74_grid.
Print Assumptions C74_density.
Print Assumptions C74_boundary.
Print Assumptions C74_laplacian.
Print Assumptions C74_max_point.
Print Assumptions C74_residues.
Print Assumptions C74_flow.
Print Assumptions C74_index.
Print Assumptions C74_distance.
Print Assumptions C74_cost.
Print Assumptions C74_workers.
Print Assumptions C74_link_model.
Print Assumptions C74_default_weights.
Print Assumptions C74_dot.
Print Assumptions C74_t_dot.
Print Assumptions C74_bcast.
Print Assumptions C74_estimate.
