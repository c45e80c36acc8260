(** C59 for the L2 method on an image in several parts: tiles that agree exactly
    can come out one cycle apart. *)
From Verif Require Import Base BaseLemmas GraphModel TileModel OverlapModel OverlapSpec BulkModel BulkSpec MergeModel MergeSpec WorkflowModel WorkflowSpec
  SlcModel McfSpec Props_Tile DescribeProofs Props_Merge ExactSpec ExactWitness.
From Coq Require Import List ZifyBool Lqa.
Import ListNotations.
Set Default Goal Selector "!".
Local Open Scope nat_scope.

(** numpy's lstsq: of all minimisers the one of smallest norm. *)
Definition smallest_minimiser (a : list (list Q)) (b x : list Q) : Prop :=
  minimiser a b x /\ forall y, length y = length x -> minimiser a b y -> (normsq x <= normsq y)%Q.

(** Two islands of two tiles each; the phase grows by 3/20 per row. Tile 3 starts
    past half a cycle and is one cycle below the truth, tile 2 is not. *)
Definition is_tiles : tileset := TileSet (32, 2)%Z [BBox 0 0 8 2; BBox 2 0 14 2; BBox 20 0 28 2; BBox 22 0 32 2].
Definition is_truth (x : Z * Z) : Q := (inject_Z (fst x) * (3 # 20))%Q.
Definition is_cycles : list Z := [0; 0; 0; -1]%Z.
Definition is_file (b : bbox) (m : Z) : tile_file :=
  let pts := flat_map (fun r => [(Z.of_nat r, 0); (Z.of_nat r, 1)]%Z) (seq 0 (Z.to_nat (xmax b - xmin b))) in
  TileFile pts b [map (fun p => is_truth (place b p) - is_truth (xmin b, 0%Z))%Q pts] [(is_truth (xmin b, 0%Z) + twopi * inject_Z m)%Q].
Definition is_files : list tile_file := map (fun p => is_file (fst p) (snd p)) (combine (tiles is_tiles) is_cycles).
Definition is_mask : list (list bool) := map (fun r => [negb ((14 <=? r) && (r <? 20)); negb ((14 <=? r) && (r <? 20))]) (seq 0 32).
Definition is_lsq (_ : list (list Q)) (_ : list Q) : list Q := [0; 0; 1 # 2; -1 # 2]%Q.
Definition is_env : env :=
  Env "tmp" "out" [] [] [] (fun _ => Err ValueError) (@rev nat) true (TilerSettings 4 4 100 1%Q) 2 11 "dirichlet" "L2" 1 pick_rows (fun _ => 2%Z)
      labels_of (fun _ => None) is_lsq (fun _ b => map (fun _ => 0%Q) b) (fun _ => true) (fun p => Ok (map (fun i => (i, i + 1, i + 2)) (seq 0 (length p - 2)))).
Notation is_rows := (map (diff_row 4) [(0, 1); (2, 3)]).

Lemma normsq_pos v : (0 <= normsq v)%Q.
Proof. unfold normsq. apply sumQ_map_nonneg. intros x _. destruct (Qlt_le_dec x 0); nra. Qed.

(** The solution is not a choice of the model: lstsq has no other. *)
Theorem C36_islands_solution x : length x = 4 -> smallest_minimiser is_rows [0; -1]%Q x ->
  (nth 0 x 0 == 0 /\ nth 1 x 0 == 0 /\ nth 2 x 0 == 1 # 2 /\ nth 3 x 0 == -1 # 2)%Q.
Proof.
  destruct x as [|a [|b [|c [|d [|]]]]]; try discriminate. intros _ [H1 H2].
  assert (normsq (subQ [0; -1] (mat_vec is_rows [0; 0; 1 # 2; -1 # 2]))%Q == 0)%Q as Z0 by reflexivity.
  assert (minimiser is_rows [0; -1]%Q [0; 0; 1 # 2; -1 # 2]%Q) as M0.
  { intros y _. rewrite Z0. apply normsq_pos. }
  specialize (H2 [0; 0; 1 # 2; -1 # 2]%Q eq_refl M0). specialize (H1 [0; 0; 1 # 2; -1 # 2]%Q eq_refl). rewrite Z0 in H1.
  unfold normsq, subQ, mat_vec, dotQ, diff_row, sumQ in H1, H2. cbn in H1, H2. cbn [nth].
  assert (forall u v, u * u + v * v <= 0 -> u == 0 /\ v == 0)%Q as K.
  { intros u v L. assert (0 <= u * u)%Q by (destruct (Qlt_le_dec u 0); nra). assert (0 <= v * v)%Q by (destruct (Qlt_le_dec v 0); nra).
    split; [destruct (Q_dec u 0) as [[N|N]|N]|destruct (Q_dec v 0) as [[N|N]|N]]; auto; exfalso; nra. }
  destruct (K (b - a) (d - c + 1))%Q as [E1 E2].
  { eapply Qle_trans; [|exact H1]. apply Qle_lteq. right. ring. }
  assert (b == a)%Q as Eb by lra. assert (d == c - 1)%Q as Ed by lra. rewrite Eb, Ed in H2.
  destruct (K a (c - (1 # 2)))%Q as [E3 E4]; [nra|]. repeat split; lra.
Qed.

Lemma is_smallest : smallest_minimiser is_rows [0; -1]%Q (is_lsq [] []).
Proof.
  assert (normsq (subQ [0; -1] (mat_vec is_rows (is_lsq [] [])))%Q == 0)%Q as Z0 by reflexivity. split.
  - intros y _. rewrite Z0. apply normsq_pos.
  - intros y L M. specialize (M (is_lsq [] []) (eq_sym L)). rewrite Z0 in M. destruct y as [|a [|b [|c [|d [|]]]]]; try discriminate.
    unfold normsq, subQ, mat_vec, dotQ, diff_row, sumQ in M |- *. cbn in M |- *.
    assert (forall u v, u * u + v * v <= 0 -> v == 0)%Q as K.
    { intros u v H. assert (0 <= u * u)%Q by (destruct (Qlt_le_dec u 0); nra). destruct (Q_dec v 0) as [[N|N]|N]; auto; exfalso; nra. }
    assert (d - c + 1 == 0)%Q as E by (apply (K (b - a)%Q); eapply Qle_trans; [|exact M]; apply Qle_lteq; right; ring).
    assert (d == c - 1)%Q as Ed by lra. rewrite Ed. assert (0 <= a * a)%Q by (destruct (Qlt_le_dec a 0); nra). assert (0 <= b * b)%Q by (destruct (Qlt_le_dec b 0); nra).
    assert (0 <= (c - (1 # 2)) * (c - (1 # 2)))%Q by (destruct (Qlt_le_dec (c - (1 # 2)) 0); nra). nra.
Qed.

(** Every tile has the true phase up to whole cycles. *)
Lemma is_exact j p x : found is_files x j p -> (phase_of (nth j is_files dfile) 0 p == is_truth x + twopi * inject_Z (nth j is_cycles 0%Z))%Q.
Proof.
  intros (fl & Ef & Ep). rewrite (nth_error_nth _ _ _ Ef).
  assert (forall b m, nth_error (file_coords (is_file b m)) p = Some x -> (phase_of (is_file b m) 0 p == is_truth x + twopi * inject_Z m)%Q) as K.
  { intros b m E. unfold phase_of, at_, is_file, file_coords in *. cbn [tf_uw tf_offset tf_points tf_tile nth] in *. set (pts := flat_map _ _) in *. clearbody pts.
    rewrite nth_error_map in E. destruct (nth_error pts p) as [y|] eqn:Ey; [|discriminate]. cbn in E. injection E as <-.
    rewrite (nth_indep _ 0%Q (is_truth (place b y) - is_truth (xmin b, 0%Z))%Q) by (rewrite map_length; apply nth_error_Some; congruence).
    rewrite (map_nth (fun p => is_truth (place b p) - is_truth (xmin b, 0%Z))%Q pts y p), (nth_error_nth _ _ _ Ey). unfold place. ring. }
  unfold is_files, is_cycles in *. cbn [combine map tiles is_tiles fst snd] in Ef.
  destruct j as [|[|[|[|j]]]]; cbn [nth_error] in Ef; [| | | |destruct j; discriminate]; injection Ef as <-; cbn [nth]; now apply K.
Qed.

(** The overlap of tiles 2 and 3 is recorded and they agree there up to one cycle.
    The offsets are half a cycle up and half a cycle down, so that rounding to
    whole cycles moves neither tile, and the phase jumps by a cycle between row 21
    and row 22. *)
Theorem C59_islands_refuted :
  smallest_minimiser is_rows [0; -1]%Q (is_lsq is_rows [0; -1]%Q) /\
  (forall j p x, found is_files x j p -> (phase_of (nth j is_files dfile) 0 p == is_truth x + twopi * inject_Z (nth j is_cycles 0%Z))%Q) /\
  exists f bulk rr omap m r d mo v v',
    compute_phasediff_deciles (e_components is_env) (e_min_overlap is_env) is_files is_tiles = Ok f /\
    In (2, 3) (of_overlaps f) /\
    get_bulk_offsets (e_mip is_env) (e_lsq is_env) (e_bulk_method is_env) f is_tiles is_mask = Ok (bulk, rr) /\
    overlap_map f = Ok omap /\ get_max_degree (map file_coords is_files) (shape is_tiles) = Ok m /\
    alone is_env f omap m bulk (shape is_tiles) is_files 0 = Ok (r, d, mo) /\
    pixel r (21, 0)%Z = Some v /\ (v == is_truth (21, 0)%Z)%Q /\
    pixel r (22, 0)%Z = Some v' /\ (v' == is_truth (22, 0)%Z - twopi)%Q.
Proof.
  split; [exact is_smallest|]. split; [exact is_exact|].
  set (F := compute_phasediff_deciles (e_components is_env) (e_min_overlap is_env) is_files is_tiles).
  set (A := do f <- F; do b <- get_bulk_offsets (e_mip is_env) (e_lsq is_env) (e_bulk_method is_env) f is_tiles is_mask;
    do o <- overlap_map f; do m <- get_max_degree (map file_coords is_files) (shape is_tiles);
    do r <- alone is_env f o m (fst b) (shape is_tiles) is_files 0;
    match pixel (fst (fst r)) (21, 0)%Z, pixel (fst (fst r)) (22, 0)%Z with
    | Some v, Some v' => Ok (existsb (fun p => (fst p =? 2) && (snd p =? 3)) (of_overlaps f) && Qeq_bool v (is_truth (21, 0)%Z) && Qeq_bool v' (is_truth (22, 0)%Z - twopi))
    | _, _ => Err ValueError
    end).
  assert (A = Ok true) as H by (vm_compute; reflexivity). unfold A in H. clear A.
  destruct F as [f|] eqn:EF; [|discriminate]. cbn [bind] in H.
  destruct (get_bulk_offsets _ _ _ f _ _) as [[bulk rr]|] eqn:Eb; [|discriminate]. cbn [bind fst] in H.
  destruct (overlap_map f) as [omap|] eqn:Eo; [|discriminate]. cbn [bind] in H.
  destruct (get_max_degree _ _) as [m|] eqn:Em; [|discriminate]. cbn [bind] in H.
  destruct (alone _ _ _ _ _ _ _ _) as [[[r d] mo]|] eqn:Ea; [|discriminate]. cbn [bind fst] in H.
  destruct (pixel r (21, 0)%Z) as [v|] eqn:E1; [|discriminate]. destruct (pixel r (22, 0)%Z) as [v'|] eqn:E2; [|discriminate].
  injection H as H. apply andb_prop in H as [H H3]. apply andb_prop in H as [H1 H2]. apply Qeq_bool_iff in H2, H3.
  apply existsb_exists in H1 as ([i j] & I & E). cbn in E. assert (i = 2 /\ j = 3) as [-> ->] by lia.
  exists f, bulk, rr, omap, m, r, d, mo, v, v'. repeat (split; [assumption || reflexivity|]). assumption.
Qed.

Print Assumptions C36_islands_solution.
Print Assumptions C59_islands_refuted.
