(** C74, rounded arithmetic: the models that round raise the same exceptions as
    the exact ones, since every test but those on phases is on indices and shapes. *)
From Verif Require Import Base BaseLemmas TileModel OverlapModel BulkModel DirichletModel MergeModel
  GraphModel GraphSpec McfModel EmcfModel FloodProofs FloatModel FloatMcfModel FloatCubeModel FloatMergeModel FloatRunModel
  Props_ErrorsMerge Props_ErrorsGraph Props_Mcf.
From Coq Require Import List Lia ZifyBool.
Import ListNotations.
Set Default Goal Selector "!".
Local Open Scope nat_scope.

(** * mcf *)

Theorem C74_float_residues f1 f2 fe s p e : compute_residues_fl f1 f2 fe s p = Err e <-> compute_residues s p = Err e.
Proof.
  unfold compute_residues_fl, compute_residues. destruct (negb _); [reflexivity|].
  destruct (cycle_length _); cbn [bind]; [|reflexivity]. destruct (existsb _ _); [reflexivity|split; discriminate].
Qed.
Theorem C74_float_gradients fs add s gr e :
  compute_residues_from_gradients_fl fs add s gr = Err e <-> compute_residues_from_gradients s gr = Err e.
Proof.
  unfold compute_residues_from_gradients_fl, compute_residues_from_gradients. destruct (negb _); [reflexivity|split; discriminate].
Qed.
Example C74_float_residues_witness : let s g := Solver g [] [] in
  let res g p := compute_residues_fl rnd64 rnd64 rnd64 (s g) p in
  res (Graph 3 [] [[0; 1; 2]]) [1; 2]%Q = Err ValueError /\ res (Graph 2 [] []) [1; 2]%Q = Err IndexError /\
  res (Graph 2 [] [[0; 1; 2]]) [1; 2]%Q = Err IndexError /\
  compute_residues_from_gradients_fl rnd64 Qplus (s (Graph 2 [(0, 1)] [])) [] = Err ValueError.
Proof. repeat split. Qed.

(** The walk visits the same points in the same order, whatever the values. *)
Definition same_walk (a b : ff) : Prop := ff_done a = ff_done b /\ ff_todo a = ff_todo b.
Lemma nbr_walk fe i a b j g g' : same_walk a b -> same_walk (ff_nbr_fl fe i a (j, g)) (ff_nbr i b (j, g')).
Proof.
  intros [D T]. unfold ff_nbr_fl, ff_nbr. rewrite D. destruct (negb _).
  { split; cbn; congruence. }
  match goal with |- same_walk (if ?x then _ else _) (if ?y then _ else _) => destruct x; destruct y end; (split; cbn; congruence).
Qed.
Lemma fold_walk fe i : forall l l' a b, map fst l = map fst l' -> same_walk a b ->
  same_walk (fold_left (ff_nbr_fl fe i) l a) (fold_left (ff_nbr i) l' b).
Proof.
  induction l as [|[j g] l IH]; intros [|[j' g'] l'] a b H W; try discriminate; [exact W|].
  cbn in H. injection H as -> H. cbn [fold_left]. apply IH; [exact H|]. apply nbr_walk. exact W.
Qed.
Lemma loop_walk fe adj adj' : (forall i, map fst (adj i) = map fst (adj' i)) -> forall fuel a b, same_walk a b ->
  match ff_loop_fl fe fuel adj a, ff_loop fuel adj' b with
  | Ok x, Ok y => same_walk x y
  | Err x, Err y => x = OutOfFuel /\ y = OutOfFuel
  | _, _ => False
  end.
Proof.
  intros H. induction fuel as [|fuel IH]; intros a b W; pose proof W as [D T]; cbn [ff_loop_fl ff_loop]; rewrite T; destruct (ff_todo b).
  - exact W.
  - auto.
  - exact W.
  - apply IH. apply fold_walk; [apply H|]. split; [exact D|reflexivity].
Qed.
Lemma nbrs_fst links : forall g g', length g = length links -> length g' = length links ->
  forall i, map fst (nbrs links g i) = map fst (nbrs links g' i).
Proof.
  unfold nbrs. induction links as [|[a b] links IH]; intros [|x g] [|y g'] L L' i; try discriminate; [reflexivity|].
  cbn [combine flat_map]. rewrite !map_app. cbn in L, L'. f_equal; [|apply IH; lia].
  destruct (a =? i); destruct (b =? i); reflexivity.
Qed.

(** flood_fill: every failure is a ValueError, and the same situations are
    failures as without rounding. *)
Theorem C74_float_flood fe pd indata links flows m :
  (forall e, flood_fill_fl fe pd indata links flows m = Err e -> e = ValueError) /\
  (m = OtherMode \/ length links <> length flows \/ links = [] \/
   (exists npts, max_point links = Ok npts /\
      (length indata <> match m with Gradients => length links | _ => npts end \/
       exists v, v < npts /\ ~ reach links 0 v)) ->
   flood_fill_fl fe pd indata links flows m = Err ValueError).
Proof.
  assert (forall npts, length links = length flows -> m <> OtherMode -> max_point links = Ok npts ->
    length indata = match m with Gradients => length links | _ => npts end ->
    exists x, ff_loop_fl fe npts (nbrs links (link_grads_fl fe pd m indata links flows))
                (FF (upd (repeat false npts) 0 true) [0] (repeat 0%Q npts) 0) = Ok x /\
      (forallb (fun b => b) (ff_done x) = true -> forall v, v < npts -> reach links 0 v)) as W.
  { intros npts Lf Hm Hn Hi.
    destruct (loop_ok indata links flows m npts Lf Hn Hi) as (y & P & E & Hinv & Htodo).
    pose proof (loop_walk fe (nbrs links (link_grads_fl fe pd m indata links flows)) (nbrs links (link_grads m indata links flows))) as LW.
    assert (forall i, map fst (nbrs links (link_grads_fl fe pd m indata links flows) i) = map fst (nbrs links (link_grads m indata links flows) i)) as NF.
    { apply nbrs_fst; [unfold link_grads_fl|unfold link_grads]; now rewrite map_length, seq_length. }
    specialize (LW NF npts (FF (upd (repeat false npts) 0 true) [0] (repeat 0%Q npts) 0)
                  (FF (upd (repeat false npts) 0 true) [0] (repeat 0%Q npts) 0) (conj eq_refl eq_refl)).
    rewrite E in LW. destruct (ff_loop_fl _ _ _ _) as [x|]; [|destruct LW]. exists x. split; [reflexivity|].
    destruct LW as [-> _]. intros F v Hv. apply (i_rch _ _ _ _ _ _ _ Hinv).
    apply (proj1 (all_done indata links flows m npts Lf Hi y (i_len1 _ _ _ _ _ _ _ Hinv)) F). exact Hv. }
  assert (forall e, flood_fill_fl fe pd indata links flows m = Err e -> e = ValueError) as R.
  { intros e H. unfold flood_fill_fl in H.
    destruct (Nat.eqb_spec (length links) (length flows)) as [HF|]; cbn [negb] in H; [|congruence].
    assert (m = OtherMode \/ m <> OtherMode) as [->|Hm] by (destruct m; auto; right; discriminate); [congruence|].
    destruct (max_point links) as [npts|e'] eqn:HN.
    2:{ apply C74_max_point in HN. destruct HN as [_ ->]. destruct m; cbn [bind] in H; congruence. }
    cbn [bind] in H.
    destruct (Nat.eqb_spec (length indata) (match m with Gradients => length links | _ => npts end)) as [HI|HI].
    - destruct (W npts HF Hm eq_refl HI) as (x & E & _). apply Nat.eqb_eq in HI.
      destruct m; [|idtac|congruence]; try rewrite HI in H; cbn [negb] in H; rewrite E in H; cbn [bind] in H;
        destruct (0 <? ff_err x); try congruence; destruct (negb _); congruence.
    - apply Nat.eqb_neq in HI. destruct m; try congruence; try rewrite HI in H; cbn [negb] in H; congruence. }
  split; [exact R|]. intros H.
  destruct (flood_fill_fl fe pd indata links flows m) as [u|e] eqn:E; [|f_equal; apply R; reflexivity].
  exfalso. clear R. unfold flood_fill_fl in E.
  destruct (Nat.eqb_spec (length links) (length flows)) as [HF|]; cbn [negb] in E; [|congruence].
  assert (m = OtherMode \/ m <> OtherMode) as [->|Hm] by (destruct m; auto; right; discriminate); [congruence|].
  destruct (max_point links) as [npts|e'] eqn:HN; [|destruct m; cbn [bind] in E; congruence].
  cbn [bind] in E. destruct H as [H|[H|[H|(npts' & [= <-] & H)]]]; [tauto|tauto|subst; discriminate|].
  destruct (Nat.eqb_spec (length indata) (match m with Gradients => length links | _ => npts end)) as [HI|HI].
  - destruct H as [H|(v & Hv & H)]; [tauto|]. apply H. clear H.
    destruct (W npts HF Hm eq_refl HI) as (x & Ex & D). apply Nat.eqb_eq in HI. apply D; [|exact Hv].
    destruct m; [|idtac|congruence]; try rewrite HI in E; cbn [negb] in E; rewrite Ex in E; cbn [bind] in E;
      destruct (0 <? ff_err x); try congruence; destruct (forallb _ (ff_done x)); try reflexivity; discriminate.
  - apply Nat.eqb_neq in HI. destruct m; try congruence; try rewrite HI in E; discriminate.
Qed.
Example C74_float_flood_witness : let fl := flood_fill_fl rnd64 (fun a b => b - a)%Q in
  fl [1; 1]%Q [(0, 1)] [0; 0]%Z Gradients = Err ValueError /\ fl [1]%Q [(0, 1)] [0]%Z OtherMode = Err ValueError /\
  fl [] [] [] Points = Err ValueError /\ fl [1; 1]%Q [(0, 1)] [0]%Z Gradients = Err ValueError /\
  fl [1; 1]%Q [(0, 1); (2, 3)] [0; 0]%Z Gradients = Err ValueError /\ fl [1; 1; 3]%Q [(0, 1); (1, 2); (0, 2)] [0; 0; 0]%Z Gradients = Err ValueError /\
  exists u, fl [1; 1; 2]%Q [(0, 1); (1, 2); (0, 2)] [0; 0; 0]%Z Gradients = Ok u.
Proof. repeat split; try reflexivity. eexists. vm_compute. reflexivity. Qed.

(** Without a worker. *)
Theorem C74_float_workers F smcf sched cpu e grad :
  s_cost_type (em_set e) = OtherCost \/ (s_worker_count (em_set e) < 1 /\ cpu <= 1)%Z ->
  unwrap_gradients_in_space_fl F smcf sched cpu e grad = Err ValueError.
Proof.
  intros H. unfold unwrap_gradients_in_space_fl.
  destruct (pick_cost _ _ _ _) as [c|x] eqn:P; cbn [bind].
  - destruct H as [H|H]; [rewrite H in P; discriminate|]. unfold space_workers.
    destruct (Z.ltb_spec (s_worker_count (em_set e)) 1); [|lia]. destruct (Z.leb_spec (cpu - 1) 0); [reflexivity|lia].
  - apply C74_cost in P. destruct P as [_ ->]. reflexivity.
Qed.
Example C74_float_workers_witness : forall F smcf sched s t grad,
  let e ct sw := Emcf s t (Settings Constant ct 1 1 sw) [] [] [] [] in
  unwrap_gradients_in_space_fl F smcf sched 8 (e OtherCost 2%Z) grad = Err ValueError /\
  unwrap_gradients_in_space_fl F smcf sched 1 (e Constant 0%Z) grad = Err ValueError.
Proof. intros. split; apply C74_float_workers; cbn; auto. right. lia. Qed.

(** * Merging *)

Theorem C74_float_single fl f idx sh e : single_band_fl fl f idx sh = Err e <-> single_band f idx sh = Err e.
Proof.
  rewrite C74_single. unfold single_band_fl.
  destruct ((idx <? length (tf_uw f)) && (idx <? length (tf_offset f))) eqn:L; cbn [negb].
  - destruct (forallb (in_shape sh) (file_coords f)) eqn:S; cbn [negb].
    + split; [discriminate|]. intros (_ & [H|[H|(p & Hp & H)]]); try lia.
      apply forallb_forall with (x := p) in S; [|exact Hp]. apply in_shape_no in H. congruence.
    + apply shapes_no in S. split; [intros [= <-]; auto|intros [-> _]; reflexivity].
  - split; [intros [= <-]; split; [reflexivity|lia]|intros [-> _]; reflexivity].
Qed.

Theorem C74_float_start fl fd f jj bulk b e : start_tile_fl fl fd f jj bulk b = Err e <-> start_tile f jj bulk [b] = Err e.
Proof.
  rewrite C74_start. unfold start_tile_fl, reset_band_index. cbn [increasing forallb negb].
  rewrite Bool.andb_true_r. destruct ((b <? length (tf_uw f)) && (b <? length (tf_offset f))) eqn:L; cbn [negb].
  - destruct ((b <? length bulk) && (jj <? length (nth b bulk []))) eqn:K; cbn [negb].
    + split; [discriminate|]. intros [H|(_ & _ & b' & [<-|[]] & H)]; [discriminate|lia].
    + split.
      * intros [= <-]. right. split; [eexists; reflexivity|]. split; [reflexivity|]. exists b. split; [left; reflexivity|lia].
      * intros [H|(_ & -> & _)]; [discriminate|reflexivity].
  - split; [intros [= <-]; auto|]. intros [[= <-]|((t & H) & _)]; [reflexivity|discriminate].
Qed.

(** Tiles of the two models with the same files. *)
Theorem C74_float_neighbour fl f ts fts ii c s s' jj e : map t_file ts = map ft_file fts ->
  add_neighbour_fl fl f fts ii (c, s) jj = Err e <-> add_neighbour f ts ii (c, s') jj = Err e.
Proof.
  intros H. unfold add_neighbour_fl, add_neighbour.
  assert (nth_error (map t_file ts) jj = nth_error (map ft_file fts) jj) as E by now rewrite H.
  rewrite !nth_error_map in E.
  destruct (nth_error ts jj) as [t|]; destruct (nth_error fts jj) as [ft|]; cbn [option_map] in E; try discriminate.
  2:{ split; intros [= <-]; reflexivity. }
  injection E as E. assert (npoints t = ft_npoints ft) as <- by (unfold npoints, coords, ft_npoints, ft_coords; now rewrite E).
  destruct (if ii <? jj then _ else _) as [[ci cj]|x]; cbn [bind]; [|split; intros [= <-]; reflexivity].
  repeat (destruct (negb _); [split; intros [= <-]; reflexivity|]). split; discriminate.
Qed.
Theorem C74_float_band fl fts sh e : merged_band_fl fl fts sh = Err e <->
  (exists t p, In t fts /\ In p (ft_coords t) /\ ~ inside_shape sh p) /\ e = IndexError.
Proof.
  unfold merged_band_fl. destruct (forallb _ fts) eqn:F; cbn [negb].
  - split; [discriminate|]. intros [(t & p & Ht & Hp & H) _]. apply forallb_forall with (x := t) in F; [|exact Ht].
    apply forallb_forall with (x := p) in F; [|exact Hp]. apply in_shape_no in H. congruence.
  - apply forallb_no in F. destruct F as (t & Ht & F). apply shapes_no in F. destruct F as (p & Hp & F).
    split; [intros [= <-]; split; [exists t, p; auto|reflexivity]|intros [_ ->]; reflexivity].
Qed.
Theorem C74_float_deciles fl fc b1 b2 :
  (nd_shape b1 <> nd_shape b2 \/ length (nd_shape b1) <> 2 \/ nth 1 (nd_shape b1) 0 < 11 <->
   pairwise_unwrapped_diff_deciles_fl fl fc b1 b2 = Err ValueError) /\
  (forall e, pairwise_unwrapped_diff_deciles_fl fl fc b1 b2 = Err e -> e = ValueError \/ e = AssertionError).
Proof.
  unfold pairwise_unwrapped_diff_deciles_fl. destruct (list_eq_dec Nat.eq_dec (nd_shape b1) (nd_shape b2)) as [S|S]; cbn [negb].
  2:{ split; [tauto|]. intros e [= <-]. auto. }
  destruct (Nat.eqb_spec (length (nd_shape b1)) 2) as [D|D]; cbn [negb].
  2:{ split; [tauto|]. intros e [= <-]. auto. }
  destruct (Nat.ltb_spec (nth 1 (nd_shape b1) 0) 11) as [N|N].
  { split; [tauto|]. intros e [= <-]. auto. }
  destruct (negb _).
  - split; [|intros e [= <-]; auto]. split; [intros [H|[H|H]]; [tauto|tauto|lia]|discriminate].
  - split; [|discriminate]. split; [intros [H|[H|H]]; [tauto|tauto|lia]|discriminate].
Qed.
Theorem C74_float_adjust fl solve f omap degree ts ii :
  let adj := adjust_tile_fl fl solve f omap degree ts ii in
  (length ts <= ii \/ length omap <= ii -> adj = Err KeyError) /\
  (forall t l e, nth_error ts ii = Some t -> nth_error omap ii = Some l ->
     fold_res (add_neighbour_fl fl f ts ii) (repeat 1 (ft_npoints t), phase_fl fl t) l = Err e -> adj = Err e).
Proof.
  cbv zeta. unfold adjust_tile_fl. split.
  - intros [H|H]; apply nth_error_None in H.
    + rewrite H. reflexivity.
    + rewrite H. destruct (nth_error ts ii); reflexivity.
  - intros t l e -> -> H. rewrite H. reflexivity.
Qed.
(** Values of another number than the free points. *)
Theorem C74_float_dirichlet fl solve t mask xf x : solve (ft_coords t) mask xf = Ok x ->
  dirichlet_fl fl solve t mask xf = Err ValueError <-> length x <> length (DirichletModel.sel (off mask) xf).
Proof.
  intros H. unfold dirichlet_fl. rewrite H. cbn [bind]. destruct (Nat.eqb_spec (length x) (length (DirichletModel.sel (off mask) xf))); cbn [negb].
  - split; [discriminate|tauto].
  - tauto.
Qed.
Example C74_float_merge_witness : let f := TileFile [(0, 0)%Z; (0, 1)%Z] (BBox 0 0 1 2) [[0%Q; 1%Q]] [0%Q] in
  let t := FTile f [0%Q; 1%Q] [0%Q; 0%Q] in let o c1 c2 := OFile [OGroup (0, 1) c1 c2 []] [0; 0] [(0, 1)] in
  let add c1 c2 ii jj := add_neighbour_fl rnd64 (o c1 c2) [t; t] ii ([1; 1], [0%Q; 1%Q]) jj in
  single_band_fl rnd64 f 1 (1, 2)%Z = Err IndexError /\ single_band_fl rnd64 f 0 (1, 1)%Z = Err IndexError /\
  start_tile_fl rnd64 rnd64 f 0 [[]] 0 = Err IndexError /\ start_tile_fl rnd64 rnd64 f 0 [] 0 = Err IndexError /\
  add [0] [0] 0 2 = Err KeyError /\ add [2] [0] 0 1 = Err IndexError /\ add [0] [2] 0 1 = Err IndexError /\ add [0; 1] [0] 1 0 = Err ValueError /\
  (exists r, add [0; 1] [0; 1] 1 0 = Ok r) /\
  merged_band_fl rnd64 [t; t] (1, 1)%Z = Err IndexError /\
  dirichlet_fl rnd64 (fun _ _ _ => Ok [1; 2]%Q) t [true; false] [1; 2]%Q = Err ValueError.
Proof. repeat split. eexists. reflexivity. Qed.

Print Assumptions C74_float_residues.
Print Assumptions C74_float_gradients.
Print Assumptions C74_float_flood.
Print Assumptions C74_float_workers.
Print Assumptions C74_float_single.
Print Assumptions C74_float_start.
Print Assumptions C74_float_neighbour.
Print Assumptions C74_float_band.
Print Assumptions C74_float_deciles.
Print Assumptions C74_float_adjust.
Print Assumptions C74_float_dirichlet.
