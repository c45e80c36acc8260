(** Property C81: which samples the result depends on. *)
From Verif Require Import Base BaseLemmas GraphModel GraphSpec GraphProofs Hop3Proofs McfModel EmcfModel BatchProofs TileModel TileSpec SlcModel SlcSpec SlcProofs OverlapModel WorkflowModel WorkflowProofs
  UnwrapTileModel FloatCubeModel FloatTileModel PipelineSpec Props_Pipeline MaskedSpec MaskedProofs.
From Coq Require Import String.
From Coq Require Import List ZifyBool.
Import ListNotations.
Set Default Goal Selector "!".
Local Open Scope nat_scope.

(** The temporal step: the gradients of a link depend on the samples of its two
    points only. *)
Theorem C81_links smcf tsched tsched' cpu cpu' e is_ifg data data' G G' i a b :
  (forall k l, Permutation (tsched k l) l) -> (forall k l, Permutation (tsched' k l) l) -> 0 < links_per_batch (em_set e) ->
  unwrap_gradients_in_time smcf tsched cpu e is_ifg data = Ok G -> unwrap_gradients_in_time smcf tsched' cpu' e is_ifg data' = Ok G' ->
  nth_error (em_links e) i = Some (a, b) ->
  (forall r, at2 data r a = at2 data' r a /\ at2 data r b = at2 data' r b) ->
  nth i G [] = nth i G' [].
Proof.
  intros H1 H2 Hl E E' Ei H. assert (i < length (em_links e)) as Bi by (apply nth_error_Some; congruence).
  destruct (pick_cost (t_cost_type (em_set e)) (length (em_ifgs e)) (em_tdist e) (em_tcent e)) as [cost|] eqn:Ec.
  2:{ unfold unwrap_gradients_in_time in E. rewrite Ec in E. discriminate E. }
  apply (in_time_sound smcf tsched cpu e is_ifg data cost H1 Ec Hl) in E as [_ E]. apply (in_time_sound smcf tsched' cpu' e is_ifg data' cost H2 Ec Hl) in E' as [_ E'].
  specialize (E i Bi). specialize (E' i Bi).
  assert (link_column is_ifg (em_ifgs e) data (a, b) = link_column is_ifg (em_ifgs e) data' (a, b)) as Ecol.
  { unfold link_column. destruct is_ifg; apply map_ext; intros x; now rewrite ?(proj1 (H _)), ?(proj2 (H _)). }
  assert (link_out smcf e cost is_ifg data i = link_out smcf e cost is_ifg data' i) as X.
  { unfold link_out. rewrite (nth_error_nth _ _ _ Ei), Ecol. reflexivity. }
  rewrite X in E. rewrite E in E'. now injection E'.
Qed.

(** The spatial step: an interferogram depends on its own gradients only. *)
Theorem C81_ifgs smcf ssched ssched' cpu cpu' e grad grad' U U' n :
  (forall l, Permutation (ssched l) l) -> (forall l, Permutation (ssched' l) l) ->
  unwrap_gradients_in_space smcf ssched cpu e grad = Ok U -> unwrap_gradients_in_space smcf ssched' cpu' e grad' = Ok U' ->
  n < length (em_ifgs e) -> map (fun col => nth n col 0%Q) grad = map (fun col => nth n col 0%Q) grad' ->
  nth n U [] = nth n U' [].
Proof.
  intros H1 H2 E E' Bn H.
  destruct (pick_cost (s_cost_type (em_set e)) (length (em_links e)) (em_sdist e) (em_scent e)) as [cost|] eqn:Ec.
  2:{ unfold unwrap_gradients_in_space in E. rewrite Ec in E. discriminate E. }
  assert (1 <= space_workers (s_worker_count (em_set e)) cpu)%Z as W.
  { unfold unwrap_gradients_in_space in E. rewrite Ec in E. cbn [bind] in E. destruct (Z.leb_spec (space_workers (s_worker_count (em_set e)) cpu) 0); [discriminate E|lia]. }
  assert (1 <= space_workers (s_worker_count (em_set e)) cpu')%Z as W'.
  { unfold unwrap_gradients_in_space in E'. rewrite Ec in E'. cbn [bind] in E'. destruct (Z.leb_spec (space_workers (s_worker_count (em_set e)) cpu') 0); [discriminate E'|lia]. }
  apply (in_space_ok smcf ssched cpu e grad cost H1 Ec W) in E as [_ E]. apply (in_space_ok smcf ssched' cpu' e grad' cost H2 Ec W') in E' as [_ E'].
  specialize (E n Bn). specialize (E' n Bn). rewrite H in E. rewrite E in E'. now injection E'.
Qed.

Section Masked.
  Context (smcf : list arc -> list Z -> option (list Z))
          (triangles : list (Z * Z) -> res (list (nat * nat * nat)))
          (tsched : nat -> list nat -> list nat) (ssched : list nat -> list nat) (cpu : Z)
          (set : settings) (tdist tcent : list Z) (sdist scent : list (Z * Z) -> list Z).
  Notation unwrap := (unwrap_one_tile smcf triangles tsched ssched cpu set tdist tcent sdist scent).
  Notation unwrap_fl F := (unwrap_one_tile_fl F smcf triangles tsched ssched cpu set tdist tcent sdist scent).

  Lemma unwrap_same P st st' gt b : same_at P st st' ->
    (forall i j, valid_pixel st (Z.of_nat i, Z.of_nat j) ->
       Z.to_nat (xmin b) <= i < Z.to_nat (xmin b) + Z.to_nat (xmax b - xmin b) -> Z.to_nat (ymin b) <= j < Z.to_nat (ymin b) + Z.to_nat (ymax b - ymin b) ->
       P (Z.of_nat i, Z.of_nat j)) ->
    unwrap st gt b = unwrap st' gt b /\ forall F, unwrap_fl F st gt b = unwrap_fl F st' gt b.
  Proof.
    intros H HP. pose proof (points_same P st st' b H) as Ep. pose proof (read_tile_same P st st' b H HP) as Er. split; [|intros F].
    - unfold unwrap_one_tile. destruct (make_solver gt) as [s|]; [|reflexivity]. cbn [bind]. cbv zeta. rewrite <- Ep. destruct (triangles _) as [tri|]; [|reflexivity]. cbn [bind].
      destruct (make_solver (delaunay _ _)); [|reflexivity]. cbn [bind]. now rewrite Er.
    - unfold unwrap_one_tile_fl. destruct (make_solver gt) as [s|]; [|reflexivity]. cbn [bind]. cbv zeta. rewrite <- Ep. destruct (triangles _) as [tri|]; [|reflexivity]. cbn [bind].
      destruct (make_solver (delaunay _ _)); [|reflexivity]. cbn [bind]. now rewrite Er.
  Qed.

  (** One tile, in exact and in rounded arithmetic: the file, or the exception,
      depends on the samples at the valid pixels of the tile only, and on the
      coherence only through the pixels it selects. *)
  Theorem C81_tile st st' gt b : (0 <= xmin b)%Z -> (0 <= ymin b)%Z ->
    same_at (fun x => valid_pixel st x /\ has_pixel b (fst x) (snd x)) st st' ->
    unwrap st gt b = unwrap st' gt b /\ forall F, unwrap_fl F st gt b = unwrap_fl F st' gt b.
  Proof.
    intros Bx By H. apply (unwrap_same _ st st' gt b H). intros i j V Bi Bj. split; [exact V|]. unfold has_pixel. cbn [fst snd]. lia.
  Qed.

  (** The whole workflow, from any files: samples at pixels that are not valid
      change nothing that is written and no exception. *)
  Theorem C81_workflow st st' e s : same_at (valid_pixel st) st st' -> run (cli unwrap st e) s = run (cli unwrap st' e) s.
  Proof.
    intros H. unfold cli. rewrite (sa_files _ _ _ H). revert s. apply same_then; [apply same_refl|]. intros gt.
    assert (stack_env st' gt unwrap e = Env (e_tmp e) (e_out e) (st_dates st) (g_links gt) (stack_mask st) (unwrap st' gt) (e_sched e) (e_use_tiles e)
      (e_tiler e) (e_parallel_tiles e) (e_min_overlap e) (e_method e) (e_bulk_method e) (e_parallel_ifgs e) (e_pick e)
      (e_root e) (e_components e) (e_mip e) (e_lsq e) (e_cg e) (e_ilu e) (e_triangles e)) as ->.
    { unfold stack_env, st_dates. now rewrite (sa_files _ _ _ H), (stack_mask_same _ _ _ H). }
    apply (main_same (stack_env st gt unwrap e)). intros b. exact (proj1 (unwrap_same _ st st' gt b H (fun i j V _ _ => V))).
  Qed.
End Masked.

(** * A case *)

(** Two by two pixels, the last of which is not valid. Its coherence and its
    samples are parameters, and so is one sample of a valid pixel. *)
Definition mk_image (v k : Q) (t : nat) : list (list Q) := [[inject_Z (Z.of_nat t); 1 # 2]; [k * inject_Z (Z.of_nat t); v * inject_Z (Z.of_nat t)]]%Q.
Definition mk_stack (c v k : Q) : slc_stack Q :=
  SlcStack [("20200101", None); ("20200113", Some "a"); ("20200125", Some "b"); ("20200206", Some "c")]%string
    [[Some 1; Some 1]; [Some 1; Some c]]%Q (1 # 2)
    (fun f => if String.eqb f "a" then Some (mk_image v k 1) else if String.eqb f "b" then Some (mk_image v k 2) else if String.eqb f "c" then Some (mk_image v k 3) else None).
Definition mk_unwrap (st : slc_stack Q) := unwrap_one_tile (fun _ _ => None) px_triangles (fun _ l => rev l) (@rev nat) 4 (Settings Constant Constant 2 0 0) [] [] (fun _ => []) (fun _ => [])
  st (hop3_graph 4) (BBox 0 0 2 2).

Lemma mk_valid c v k x : (c <= 1 # 2)%Q -> valid_pixel (mk_stack c v k) x <-> x = (0, 0)%Z \/ x = (0, 1)%Z \/ x = (1, 0)%Z.
Proof.
  intros Hc. unfold valid_pixel. split.
  - intros (q & E & L). destruct x as [r s]. unfold image_at in E. cbn [fst snd] in E. destruct ((0 <=? r) && (0 <=? s))%Z eqn:B; [|discriminate E].
    unfold pixel_at in E. cbn [mk_stack st_coh st_threshold] in *.
    destruct (Z.to_nat r) as [|[|i]] eqn:Er; cbn [nth_error] in E; [| |destruct i; discriminate E];
      (destruct (Z.to_nat s) as [|[|j]] eqn:Es; cbn [nth_error] in E; [| |destruct j; discriminate E]).
    + left. f_equal; lia.
    + right; left. f_equal; lia.
    + right; right. f_equal; lia.
    + injection E as <-. exfalso. apply (Qlt_not_le _ _ L Hc).
  - intros [->|[->| ->]]; exists 1%Q; split; reflexivity.
Qed.
Example mk_same c c' v v' k : (c <= 1 # 2)%Q -> (c' <= 1 # 2)%Q -> same_at (valid_pixel (mk_stack c v k)) (mk_stack c v k) (mk_stack c' v' k).
Proof.
  intros Hc Hc'. split; try reflexivity.
  - intros x. rewrite !mk_valid by auto. tauto.
  - intros f. cbn. repeat (destruct (String.eqb _ _); [split; discriminate|]). tauto.
  - intros f img img'. cbn [mk_stack st_slc]. repeat (destruct (String.eqb f _); [intros [= <-] [= <-]; split; [reflexivity|];
      intros x V; apply mk_valid in V; [|auto]; destruct V as [->|[->| ->]]; reflexivity|]). discriminate.
Qed.

(** The theorem applies, the tile is unwrapped, and a sample of a valid pixel does
    matter. *)
Example C81_witness : exists f f', mk_unwrap (mk_stack (1 # 4) 0 1) = Ok f /\ mk_unwrap (mk_stack 0 (7 # 3) 1) = Ok f /\
  tf_points f = [(0, 0); (0, 1); (1, 0)]%Z /\ mk_unwrap (mk_stack (1 # 4) 0 (1 # 3)) = Ok f' /\ f' <> f.
Proof.
  destruct (mk_unwrap (mk_stack (1 # 4) 0 1)) as [f|] eqn:E; [|exfalso; vm_compute in E; discriminate E].
  destruct (mk_unwrap (mk_stack (1 # 4) 0 (1 # 3))) as [f'|] eqn:E'; [|exfalso; vm_compute in E'; discriminate E'].
  exists f, f'. split; [reflexivity|]. split.
  - rewrite <- E. symmetry. unfold mk_unwrap. refine (proj1 (unwrap_same _ _ _ _ _ _ _ _ _ _ _ _ _ _ _ (mk_same _ _ _ _ _ _ _) (fun i j V _ _ => V))); discriminate.
  - vm_compute in E. injection E as <-. vm_compute in E'. injection E' as <-. split; [reflexivity|]. split; [reflexivity|]. intros H. discriminate H.
Qed.

Print Assumptions C81_links.
Print Assumptions C81_ifgs.
Print Assumptions C81_tile.
Print Assumptions C81_workflow.
