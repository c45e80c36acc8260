(** When each step of the workflow succeeds, and what it then writes. *)
From Verif Require Import Base BaseLemmas TileModel JsonModel NamesModel OverlapModel BulkModel BulkProofs MergeModel MergeSpec
  MergeBatchProofs WorkflowModel WorkflowSpec WorkflowProofs.
From Coq Require Import List ZifyBool Permutation.
Import ListNotations.
Set Default Goal Selector "!".

Section Reads.
  Context (e : env).

  Lemma read_tileset_iff s ws t : run (read_tileset e) s = (ws, Ok t) <-> ws = [] /\ tileset_of e s t.
  Proof.
    unfold read_tileset, tileset_of. cbn [run]. destruct (s _) as [[x|x|x|x|m x r|x]|]; cbn [run]; split; intros H;
      try discriminate; try (destruct H as [_ (y & Hy & _)]; discriminate).
    - apply lift_inv in H as [-> H]. eauto.
    - destruct H as [-> (y & Hy & H)]. injection Hy as ->. now rewrite run_lift, H.
  Qed.
  Lemma read_tile_iff s i ws f : run (read_tile e i) s = (ws, Ok f) <-> ws = [] /\ s (tile_filename (e_tmp e) i) = Some (CTile f).
  Proof.
    unfold read_tile. cbn [run]. destruct (s _) as [[x|x|x|x|m x r|x]|]; cbn [run]; split; intros H; try discriminate; try (destruct H; discriminate).
    - injection H as <- <-. auto.
    - destruct H as [-> H]. now injection H as ->.
  Qed.
  Lemma read_overlaps_iff s ws f : run (read_overlaps e) s = (ws, Ok f) <-> ws = [] /\ s (overlap_filename (e_tmp e)) = Some (COverlaps f).
  Proof.
    unfold read_overlaps. cbn [run]. destruct (s _) as [[x|x|x|x|m x r|x]|]; cbn [run]; split; intros H; try discriminate; try (destruct H; discriminate).
    - injection H as <- <-. auto.
    - destruct H as [-> H]. now injection H as ->.
  Qed.
  Lemma read_offsets_iff s ws off : run (read_offsets e) s = (ws, Ok off) <->
    ws = [] /\ exists r, s (offsets_filename (e_tmp e)) = Some (COffsets (e_bulk_method e) off r).
  Proof.
    unfold read_offsets. cbn [run]. destruct (s _) as [[x|x|x|x|m x r|x]|]; cbn [run]; split; intros H;
      try discriminate; try (destruct H as [_ (y & Hy)]; discriminate).
    - destruct (String.eqb_spec m (e_bulk_method e)) as [->|]; [|discriminate]. cbn in H. injection H as <- <-. eauto.
    - destruct H as [-> (y & H)]. injection H as -> -> ->. now rewrite String.eqb_refl.
  Qed.
  Lemma read_tiles_iff s n : forall k ws files, run (collect (read_tile e) (seq k n)) s = (ws, Ok files) <->
    ws = [] /\ length files = n /\ forall i f, nth_error files i = Some f -> s (tile_filename (e_tmp e) (k + i)) = Some (CTile f).
  Proof.
    induction n as [|n IH]; intros k ws files; cbn [seq collect].
    - cbn. split; intros H; [injection H as <- <-; repeat split; intros [|i] f; discriminate|].
      destruct H as (-> & L & _). now destruct files.
    - split; intros H.
      + apply then_inv in H as (w1 & f & w2 & H1 & H2 & ->). apply read_tile_iff in H1 as [-> H1]. cbn [apply_writes fold_left] in H2.
        apply then_inv in H2 as (w3 & fs & w4 & H3 & H4 & ->). apply IH in H3 as (-> & L & H3). cbn in H4. injection H4 as <- <-.
        split; [auto|]. split; [cbn; auto|]. intros [|i] g E; [injection E as <-; now rewrite Nat.add_0_r|]. cbn in E.
        specialize (H3 i g E). now replace (k + S i)%nat with (S k + i)%nat by lia.
      + destruct H as (-> & L & H). destruct files as [|f files]; [discriminate|]. cbn in L.
        rewrite (then_pure _ _ _ f). 2:{ apply read_tile_iff. split; [auto|]. rewrite <- (Nat.add_0_r k). now apply H. }
        rewrite (then_pure _ _ _ files); [reflexivity|]. apply IH. split; [auto|]. split; [lia|]. intros i g E.
        replace (S k + i)%nat with (k + S i)%nat by lia. now apply H.
  Qed.
End Reads.

Lemma tileset_fun e s t t' : tileset_of e s t -> tileset_of e s t' -> t = t'.
Proof. intros (x & X & E) (y & Y & F). rewrite X in Y. injection Y as <-. rewrite E in F. now injection F. Qed.
Lemma nth_error_ext {A} (a b : list A) : (forall i, nth_error a i = nth_error b i) -> a = b.
Proof.
  revert b. induction a as [|x a IH]; intros [|y b] H; auto; [now specialize (H O)|now specialize (H O)|].
  f_equal; [specialize (H O); now injection H|]. apply IH. intros i. apply (H (S i)).
Qed.
Lemma tile_files_fun e s a b : length a = length b -> tile_files e s a -> tile_files e s b -> a = b.
Proof.
  intros L A B. apply nth_error_ext. intros i. specialize (A i). specialize (B i).
  destruct (nth_error a i) as [x|] eqn:X, (nth_error b i) as [y|] eqn:Y; auto.
  - specialize (A x eq_refl). specialize (B y eq_refl). congruence.
  - apply nth_error_None in Y. assert (i < length a)%nat by (apply nth_error_Some; congruence). lia.
  - apply nth_error_None in X. assert (i < length b)%nat by (apply nth_error_Some; congruence). lia.
Qed.

Section Steps.
  Context (e : env).
  Notation json := (tiles_jsonname (e_tmp e)).
  Notation tname := (tile_filename (e_tmp e)).
  Notation oname := (overlap_filename (e_tmp e)).
  Notation bname := (offsets_filename (e_tmp e)).

  (** ** Tiles *)
  Lemma get_tiles_run s : run (get_tiles_step e) s =
    if absent s json then
      match get_tiles (e_pick e) (e_root e) (e_use_tiles e) (e_tiler e) (e_valid e) with
      | Ok t => ([(json, CText (to_json t))], Ok tt)
      | Err x => ([], Err x)
      end
    else ([], Ok tt).
  Proof.
    unfold get_tiles_step. cbv zeta. rewrite (then_pure _ _ _ _ (run_is_file _ _)). destruct (absent s json); cbn [negb]; [|reflexivity].
    destruct (get_tiles _ _ _ _ _); reflexivity.
  Qed.

  (** ** Unwrapping *)
  Definition missing_tiles (s : fs) (t : tileset) : list nat := filter (fun i => absent s (tname i)) (seq 0 (ntiles t)).
  Definition task (t : tileset) (i : nat) : res tile_file := e_unwrap e (nth i (tiles t) (BBox 0 0 0 0)).
  Definition finished (t : tileset) (order : list nat) : list write :=
    flat_map (fun i => match task t i with Ok f => [(tname i, CTile f)] | Err _ => [] end) order.
  Definition first_error (t : tileset) (order : list nat) : option exn :=
    hd_error (flat_map (fun i => match task t i with Ok _ => [] | Err x => [x] end) order).

  Lemma pool_run t : forall order s, run (pool e (task t) order) s = (finished t order, Ok (first_error t order)).
  Proof.
    unfold finished, first_error. induction order as [|i order IH]; intros s; [reflexivity|]. cbn [pool flat_map]. destruct (task t i) as [f|x].
    - cbn [run]. rewrite IH. reflexivity.
    - rewrite run_then, IH. cbn. now rewrite app_nil_r.
  Qed.
  Lemma unwrap_run s t : tileset_of e s t -> run (unwrap_tiles e) s =
    if (e_parallel_tiles e <=? 0)%Z then ([], Err ValueError)
    else (finished t (e_sched e (missing_tiles s t)),
          match first_error t (e_sched e (missing_tiles s t)) with None => Ok tt | Some x => Err x end).
  Proof.
    intros T. unfold unwrap_tiles. rewrite (then_pure _ _ _ t) by now apply read_tileset_iff. destruct (_ <=? 0)%Z; [reflexivity|].
    rewrite (then_pure _ _ _ _ (run_missing _ _ _)). rewrite concat_missing. fold (missing_tiles s t). fold (task t). rewrite run_then, pool_run. cbn [fst snd]. cbv zeta.
    destruct (first_error _ _); cbn; now rewrite app_nil_r.
  Qed.
  Lemma unwrap_inv s ws : run (unwrap_tiles e) s = (ws, Ok tt) -> exists t, tileset_of e s t /\ (0 < e_parallel_tiles e)%Z /\
    ws = finished t (e_sched e (missing_tiles s t)) /\ forall i, In i (e_sched e (missing_tiles s t)) -> exists f, task t i = Ok f.
  Proof.
    intros H. pose proof H as H0. unfold unwrap_tiles in H0. apply then_inv in H0 as (w & t & _ & H1 & _ & _). apply read_tileset_iff in H1 as [_ T].
    exists t. split; [auto|]. rewrite (unwrap_run s t T) in H. destruct (Z.leb_spec (e_parallel_tiles e) 0) as [_|P]; [discriminate|].
    split; [auto|]. destruct (first_error t _) eqn:E; [discriminate|]. injection H as <-. split; [auto|]. intros i I.
    destruct (task t i) as [f|x] eqn:K; [eauto|]. exfalso. unfold first_error in E.
    assert (In x (flat_map (fun i => match task t i with Ok _ => [] | Err x => [x] end) (e_sched e (missing_tiles s t)))) as X.
    { apply in_flat_map. exists i. split; [auto|]. rewrite K. now left. }
    destruct (flat_map _ _); [destruct X|discriminate].
  Qed.

  (** ** Overlaps *)
  Definition groups_of (os : list (option overlap_group)) : list overlap_group :=
    flat_map (fun g => match g with Some g => [g] | None => [] end) os.
  Fixpoint group_writes (gs : list overlap_group) (os : list (option overlap_group)) : list write :=
    match os with
    | [] => []
    | None :: os => group_writes gs os
    | Some g :: os => (oname, CGroups (gs ++ [g])) :: group_writes (gs ++ [g]) os
    end.
  Lemma overlap_loop_run files t : forall pairs gs s ws r,
    run (overlap_loop e files t gs pairs) s = (ws, Ok r) <->
    exists os, map_res (overlap_pair (e_min_overlap e) files t) pairs = Ok os /\ r = gs ++ groups_of os /\ ws = group_writes gs os.
  Proof.
    induction pairs as [|p pairs IH]; intros gs s ws r; cbn [overlap_loop].
    - cbn. split; intros H; [injection H as <- <-; exists []; rewrite app_nil_r; auto|]. destruct H as (os & E & -> & ->).
      injection E as <-. cbn. now rewrite app_nil_r.
    - cbn [map_res]. destruct (overlap_pair _ files t p) as [o|x]; cbn [lift then_ run bind]; [|split; [discriminate|intros (os & E & _); discriminate]].
      destruct o as [g|].
      + cbn [run]. destruct (run (overlap_loop e files t (gs ++ [g]) pairs) (store s (oname, CGroups (gs ++ [g])))) as [w q] eqn:R. cbn [fst snd].
        split; intros H.
        * injection H as <- ->. apply IH in R as (os & E & -> & ->). rewrite E. cbn. exists (Some g :: os). split; [auto|].
          split; [now rewrite <- app_assoc|reflexivity].
        * destruct H as (os & E & -> & ->). destruct (map_res _ pairs) as [os'|] eqn:M; [|discriminate]. cbn in E. injection E as <-.
          assert (run (overlap_loop e files t (gs ++ [g]) pairs) (store s (oname, CGroups (gs ++ [g]))) =
            (group_writes (gs ++ [g]) os', Ok ((gs ++ [g]) ++ groups_of os'))) as K by (apply IH; eauto).
          rewrite K in R. injection R as <- <-. cbn. now rewrite <- app_assoc.
      + rewrite IH. split; intros (os & E & -> & ->).
        * rewrite E. cbn. exists (None :: os). auto.
        * destruct (map_res _ pairs) as [os'|] eqn:M; [|discriminate]. cbn in E. injection E as <-. exists os'. auto.
  Qed.
  Lemma group_writes_name : forall os gs w, In w (group_writes gs os) -> fst w = oname /\ exists g, snd w = CGroups g.
  Proof.
    induction os as [|[g|] os IH]; intros gs w H; [destruct H| |eapply IH; eauto]. destruct H as [<-|H]; [cbn; eauto|]. eapply IH; eauto.
  Qed.

  Lemma overlaps_inv s ws : run (overlaps_step e) s = (ws, Ok tt) ->
    absent s oname = false /\ ws = [] \/
    absent s oname = true /\ exists t, tileset_of e s t /\
      (ntiles t = 1%nat /\ ws = [] \/
       ntiles t <> 1%nat /\ exists files f gw, length files = ntiles t /\ tile_files e s files /\
         compute_phasediff_deciles (e_components e) (e_min_overlap e) files t = Ok f /\ ws = gw ++ [(oname, COverlaps f)] /\
         forall w, In w gw -> fst w = oname /\ exists g, snd w = CGroups g).
  Proof.
    unfold overlaps_step. rewrite (then_pure _ _ _ _ (run_is_file _ _)). destruct (absent s oname); cbn [negb]; [|intros H; left; now injection H as <-].
    intros H. right. split; [auto|]. apply then_inv in H as (w1 & t & w2 & H1 & H & ->). apply read_tileset_iff in H1 as [-> T]. cbn [apply_writes fold_left] in H.
    exists t. split; [auto|]. destruct (Nat.eqb_spec (ntiles t) 1) as [N|N]; [left; now injection H as <-|right]. split; [auto|].
    apply then_inv in H as (w3 & files & w4 & H1 & H & ->). apply read_tiles_iff in H1 as (-> & L & F). cbn [apply_writes fold_left] in H.
    apply then_inv in H as (w5 & gs & w6 & H1 & H & ->). apply overlap_loop_run in H1 as (os & E & -> & ->). cbn in H. injection H as <-.
    eexists files, _, _. split; [auto|]. split; [exact F|]. split; [unfold compute_phasediff_deciles; rewrite E; reflexivity|]. split; [reflexivity|].
    apply group_writes_name.
  Qed.
  Lemma overlaps_run s t files f : absent s oname = true -> tileset_of e s t -> ntiles t <> 1%nat -> length files = ntiles t ->
    tile_files e s files -> compute_phasediff_deciles (e_components e) (e_min_overlap e) files t = Ok f ->
    exists gw, run (overlaps_step e) s = (gw ++ [(oname, COverlaps f)], Ok tt) /\
      forall w, In w gw -> fst w = oname /\ exists g, snd w = CGroups g.
  Proof.
    intros A T N L F E. unfold overlaps_step. rewrite (then_pure _ _ _ _ (run_is_file _ _)), A. cbn [negb].
    rewrite (then_pure _ _ _ t) by now apply read_tileset_iff. destruct (Nat.eqb_spec (ntiles t) 1); [contradiction|].
    rewrite (then_pure _ _ _ files) by now apply read_tiles_iff. unfold compute_phasediff_deciles in E.
    destruct (map_res _ (get_overlaps t)) as [os|] eqn:M; [|discriminate]. cbn in E. injection E as <-.
    exists (group_writes [] os). split; [|apply group_writes_name].
    eapply then_intro; [apply overlap_loop_run; eauto|]. reflexivity.
  Qed.

  (** ** Bulk offsets *)
  Lemma offsets_inv s ws : run (offsets_step e) s = (ws, Ok tt) ->
    absent s bname = false /\ ws = [] \/
    absent s bname = true /\ exists t, tileset_of e s t /\
      (ntiles t = 1%nat /\ ws = [] \/
       ntiles t <> 1%nat /\ exists f r, s oname = Some (COverlaps f) /\
         get_bulk_offsets (e_mip e) (e_lsq e) (e_bulk_method e) f t (e_valid e) = Ok r /\
         ws = [(bname, COffsets (e_bulk_method e) (fst r) (snd r))]).
  Proof.
    unfold offsets_step. rewrite (then_pure _ _ _ _ (run_is_file _ _)). destruct (absent s bname); cbn [negb]; [|intros H; left; now injection H as <-].
    intros H. right. split; [auto|]. apply then_inv in H as (w1 & t & w2 & H1 & H & ->). apply read_tileset_iff in H1 as [-> T]. cbn [apply_writes fold_left] in H.
    exists t. split; [auto|]. destruct (Nat.eqb_spec (ntiles t) 1) as [N|N]; [left; now injection H as <-|right]. split; [auto|].
    apply then_inv in H as (w3 & f & w4 & H1 & H & ->). apply read_overlaps_iff in H1 as (-> & F). cbn [apply_writes fold_left] in H.
    apply then_inv in H as (w5 & r & w6 & H1 & H & ->). apply lift_inv in H1 as [-> E]. cbn in H. injection H as <-. exists f, r. auto.
  Qed.
  Lemma offsets_run s t f r : absent s bname = true -> tileset_of e s t -> ntiles t <> 1%nat -> s oname = Some (COverlaps f) ->
    get_bulk_offsets (e_mip e) (e_lsq e) (e_bulk_method e) f t (e_valid e) = Ok r ->
    run (offsets_step e) s = ([(bname, COffsets (e_bulk_method e) (fst r) (snd r))], Ok tt).
  Proof.
    intros A T N F E. unfold offsets_step. rewrite (then_pure _ _ _ _ (run_is_file _ _)), A. cbn [negb].
    rewrite (then_pure _ _ _ t) by now apply read_tileset_iff. destruct (Nat.eqb_spec (ntiles t) 1); [contradiction|].
    rewrite (then_pure _ _ _ f) by now apply read_overlaps_iff. rewrite E. reflexivity.
  Qed.
End Steps.
