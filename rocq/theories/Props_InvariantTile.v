(** C73 for a tile of a stack on disk. *)
From Verif Require Import Base BaseLemmas GraphModel GraphSpec GraphProofs Hop3Proofs StripProofs McfModel McfSpec DualProofs ResidueProofs PhaseProofs
  EmcfModel EmcfSpec EmcfProofs Props_Mcf Props_Emcf InvariantSpec InvariantProofs Props_Invariant
  TileModel TileSpec SlcModel SlcSpec SlcProofs Props_Slc OverlapModel OverlapSpec MergeModel MergeSpec UnwrapTileModel UnwrapTileProofs PipelineSpec
  ExactSpec ExactTileProofs ExactWitness WorkflowModel Props_Pipeline PipelineProofs ExactRunProofs CertSolver Props_Exact Props_Any.
From Coq Require Import List Permutation Sorting.Sorted ZifyBool Lqa.
Import ListNotations.
Set Default Goal Selector "!".
Local Open Scope nat_scope.
Opaque twopi.

Section Tile.
  Context (smcf : list arc -> list Z -> option (list Z))
          (triangles : list (Z * Z) -> res (list (nat * nat * nat)))
          (tsched : nat -> list nat -> list nat) (ssched : list nat -> list nat) (cpu : Z)
          (set : settings) (tdist tcent : list Z) (sdist scent : list (Z * Z) -> list Z).
  Hypothesis Htri : forall pts tri, triangles pts = Ok tri -> planar (delaunay (length pts) tri).
  Hypothesis Hl : 0 < links_per_batch set.
  Notation unwrap := (unwrap_one_tile smcf triangles tsched ssched cpu set tdist tcent sdist scent).
  Notation date st t := (nth t (st_dates st) ""%string).

  (** Same coherence and files, each date with its own phase offset and whole cycles anywhere:
      the same points and unwrapped phases, and the phase of the first point changes by the
      difference of the offsets up to whole cycles. *)
  Theorem C73_tile st st' gt b (offset : nat -> Q) :
    hop3 (Z.of_nat (length (st_files st))) = Ok gt -> NoDup (map fst (st_files st)) ->
    (0 <= xmin b)%Z -> (0 <= ymin b)%Z -> readable st -> readable st' ->
    st_files st' = st_files st -> st_coh st' = st_coh st -> st_threshold st' = st_threshold st ->
    (forall t y p p', t < length (st_dates st) -> valid_pixel st y ->
       slc_phase st (date st t) y = Some p -> slc_phase st' (date st t) y = Some p' -> cong2pi p' (p + offset t)%Q) ->
    (* no double difference on a side of a triangle is exactly half a cycle *)
    (forall pts tri i j u v pi_u pj_u pi_v pj_v, tile_pixels st b pts -> triangles pts = Ok tri -> In (i, j) (g_links gt) ->
       In (u, v) (g_links (delaunay (length pts) tri)) ->
       slc_phase st (date st i) (place b (nth u pts (0, 0)%Z)) = Some pi_u -> slc_phase st (date st j) (place b (nth u pts (0, 0)%Z)) = Some pj_u ->
       slc_phase st (date st i) (place b (nth v pts (0, 0)%Z)) = Some pi_v -> slc_phase st (date st j) (place b (nth v pts (0, 0)%Z)) = Some pj_v ->
       ~ tie (pj_u - pi_u) (pj_v - pi_v) 0) ->
    same_outcome (fun f f' => tf_points f = tf_points f' /\ tf_tile f = tf_tile f' /\ Forall2 same_values (tf_uw f) (tf_uw f') /\
        length (tf_offset f) = length (g_links gt) /\ length (tf_offset f') = length (g_links gt) /\
        forall n i j, n < length (g_links gt) -> nth n (g_links gt) (0, 0) = (i, j) ->
          cong2pi (nth n (tf_offset f') 0%Q) (nth n (tf_offset f) 0 + (offset j - offset i))%Q)
      (unwrap st gt b) (unwrap st' gt b).
  Proof using Htri Hl.
    intros G Nf Bx By Hrd Hrd' Ef Ec Eth Hph Htie. apply hop3_is in G as [N4 Egt].
    assert (planar gt) as Pgt by (rewrite Egt; apply hop3_planar; auto).
    assert (length (st_files st) = g_npoints gt) as Ld by (rewrite Egt; reflexivity).
    assert (st_dates st' = st_dates st) as Ed by (unfold st_dates; now rewrite Ef).
    assert (tile_mask st' b = tile_mask st b) as Em by (unfold tile_mask; now rewrite Ec, Eth).
    destruct (C50_reads 0%Q st b Nf Hrd) as (wrap & Ew).
    destruct (C50_reads 0%Q st' b ltac:(now rewrite Ef) Hrd') as (wrap' & Ew').
    destruct (tile_read set Hl st gt b Nf Ld (conj Bx By) wrap Ew) as (Hp & Es & rows & Ecu & Lr & Hd).
    destruct (tile_read set Hl st' gt b ltac:(now rewrite Ef) ltac:(now rewrite Ef) (conj Bx By) wrap' Ew') as (_ & Es' & rows' & Ecu' & Lr' & Hd').
    rewrite Em in *. rewrite Ed in *. set (pts := nonzero (tile_mask st b)) in *.
    unfold unwrap_one_tile. rewrite (planar_solver gt Pgt). cbn [bind].
    change (map (map (above (st_threshold st))) (read_temporal_coherence st b)) with (tile_mask st b).
    change (map (map (above (st_threshold st'))) (read_temporal_coherence st' b)) with (tile_mask st' b). rewrite Em. fold pts.
    destruct (triangles pts) as [tri|er] eqn:Et; cbn [bind]; [|reflexivity].
    pose proof (Htri _ _ Et) as Pg. rewrite (planar_solver _ Pg). cbn [bind]. rewrite Ew, Ew'. cbn [bind]. rewrite Es, Es'. cbn [nth].
    change (g_npoints (delaunay (length pts) tri)) with (length pts). rewrite Nat.eqb_refl. cbn [negb]. rewrite Ecu, Ecu'.
    set (e := Emcf (dual_solver (delaunay (length pts) tri)) (dual_solver gt) set tdist tcent (sdist pts) (scent pts)).
    assert (em_links e = g_links (delaunay (length pts) tri)) as EL by reflexivity.
    assert (em_ifgs e = g_links gt) as EI by reflexivity.
    assert (forall u v, In (u, v) (em_links e) -> u < length pts /\ v < length pts) as Bl.
    { intros u v I. rewrite EL in I. apply (pl_lt _ Pg) in I. change (g_npoints (delaunay (length pts) tri)) with (length pts) in I. lia. }
    assert (forall i j, In (i, j) (g_links gt) -> i < length rows /\ j < length rows) as Bt.
    { intros i j I. apply (pl_lt _ Pgt) in I. rewrite dates_length in Lr. lia. }
    assert (forall t p, t < length rows -> p < length pts ->
      slc_phase st (date st t) (place b (nth p pts (0, 0)%Z)) = Some (nth p (nth t rows []) 0%Q) /\
      slc_phase st' (date st t) (place b (nth p pts (0, 0)%Z)) = Some (nth p (nth t rows' []) 0%Q)) as R.
    { intros t p Kt Kp. assert (nth_error pts p = Some (nth p pts (0, 0)%Z)) as E by now apply nth_error_nth'.
      split; [apply (Hd t Kt)|apply (Hd' t ltac:(lia))]; auto. }
    assert (forall t p, t < length rows -> p < length pts ->
      cong2pi (nth p (nth t rows' []) 0%Q) (nth p (nth t rows []) 0 + offset t)%Q) as Hc.
    { intros t p Kt Kp. destruct (R t p Kt Kp) as [R1 R2]. eapply Hph; [lia| |exact R1|exact R2].
      apply Hp. apply nth_In. exact Kp. }
    assert (same_outcome (Forall2 same_values) (unwrap_cube smcf tsched ssched cpu e (Cube 2 0 rows)) (unwrap_cube smcf tsched ssched cpu e (Cube 2 0 rows'))) as K.
    { apply (C73_offsets smcf tsched ssched cpu e _ _ (fun t => if t <? length rows then offset t else 0%Q)).
      - unfold classify, em_nepochs. cbn. rewrite dates_length in Lr. rewrite Lr, Ld, Nat.eqb_refl. reflexivity.
      - unfold classify, em_nepochs. cbn. rewrite dates_length in Lr'. rewrite Lr', Ld, Nat.eqb_refl. reflexivity.
      - intros row u v I J. cbn in I. apply (In_nth _ _ []) in I as (t & Kt & <-). rewrite (proj1 (Hd t Kt)). now apply Bl.
      - intros row u v I J. cbn in I. apply (In_nth _ _ []) in I as (t & Kt & <-). rewrite (proj1 (Hd' t Kt)). now apply Bl.
      - intros n u v Kn J. rewrite EI in *. cbn [cu_data]. unfold ifg_phase.
        pose proof (nth_In _ (0, 0) Kn) as I. destruct (nth n (g_links gt) (0, 0)) as [i j]. cbn [fst snd].
        destruct (Bt i j I) as [Ki Kj]. destruct (Bl u v J) as [Ku Kv].
        eapply (Htie pts tri i j u v); eauto; apply R; auto.
      - intros t u v J w Kw. cbn [cu_data]. destruct (Bl u v J) as [Ku Kv]. destruct (Nat.ltb_spec t (length rows)) as [Kt|Kt].
        + apply Hc; auto. destruct Kw as [->| ->]; auto.
        + rewrite !(nth_overflow _ _ (n := t)) by lia. apply cong2pi_eq. destruct w; cbn; reflexivity. }
    destruct (unwrap_cube _ _ _ _ e (Cube 2 0 rows)) as [U|x], (unwrap_cube _ _ _ _ e (Cube 2 0 rows')) as [U'|x']; cbn [same_outcome bind] in *; auto.
    cbn [tf_points tf_tile tf_uw tf_offset]. rewrite !map_length. repeat split; auto.
    intros n i j Kn E. rewrite !(map_nth' _ _ _ (0, 0)) by auto. rewrite E. cbn [fst snd cu_data]. unfold at2.
    pose proof (nth_In _ (0, 0) Kn) as I. rewrite E in I. destruct (Bt i j I) as [Ki Kj].
    assert (0 < length pts) as P0.
    { pose proof (pl_cycles _ Pg) as Q0. pose proof (pl_poly _ Pg) as Q1. pose proof (pl_side _ Pg) as Q2.
      destruct (g_cycles (delaunay (length pts) tri)) as [|c cs] eqn:EC; [now destruct Q0|].
      destruct (length pts) as [|m] eqn:EP; [|lia]. exfalso.
      assert (In c (g_cycles (delaunay 0 tri))) as Ic by (rewrite EC; now left).
      pose proof (Q1 c (or_introl eq_refl)) as L3. destruct c as [|w c]; [cbn in L3; lia|].
      pose proof (planar_vertex _ (w :: c) w Pg Ic (or_introl eq_refl)) as V. cbn in V. lia. }
    eapply cong2pi_trans; [apply pd_cong|]. eapply cong2pi_trans; [apply cong2pi_sub; apply Hc; auto|].
    destruct (pd_cong (nth 0 (nth i rows []) 0) (nth 0 (nth j rows []) 0) 0)%Q as [k Kk]. exists (- k)%Z. rewrite Kk, inject_Z_opp. ring.
  Qed.
End Tile.

(** * A case *)
(** The stack of [C65_witness], each file with another offset and with cycles that depend on the pixel. *)
Definition turn (t : nat) (x : Q) : Q := (x + inject_Z (Z.of_nat t) + twopi * inject_Z (rint x))%Q.
Definition turned_image (t : nat) : list (list Q) := map (map (turn t)) (rough_image t).
Definition turned_stack : slc_stack Q :=
  SlcStack (st_files rough_stack) (st_coh rough_stack) (st_threshold rough_stack)
    (fun f => if String.eqb f "a" then Some (turned_image 1) else if String.eqb f "b" then Some (turned_image 2) else if String.eqb f "c" then Some (turned_image 3) else None).
Lemma turned_readable : readable turned_stack.
Proof.
  intros d f. cbn [turned_stack rough_stack st_files dict_get fst snd].
  repeat (destruct (String.eqb _ _); [intros E; first [discriminate E|injection E as <-; eexists; split; [reflexivity|vm_compute; reflexivity]]|]); discriminate.
Qed.

Lemma turned_at t y p p' : image_at (rough_image t) y = Some p -> image_at (turned_image t) y = Some p' -> cong2pi p' (p + inject_Z (Z.of_nat t))%Q.
Proof.
  unfold image_at, turned_image. destruct (_ && _)%bool; [|discriminate]. unfold pixel_at. rewrite nth_error_map.
  destruct (nth_error (rough_image t) _) as [row|]; cbn [option_map]; [|discriminate]. rewrite nth_error_map. intros ->. cbn [option_map].
  intros [= <-]. exists (rint p). reflexivity.
Qed.

Definition phase_or (d : string) (y : Z * Z) : Q := match slc_phase rough_stack d y with Some p => p | None => 0%Q end.
Example C73_tile_witness : let b := BBox 0 0 7 2 in let st := rough_stack in let st' := turned_stack in let gt := hop3_graph 4 in
  hop3 (Z.of_nat (length (st_files st))) = Ok gt /\ NoDup (map fst (st_files st)) /\ readable st /\ readable st' /\
  (forall t y p p', t < length (st_dates st) -> valid_pixel st y ->
     slc_phase st (nth t (st_dates st) ""%string) y = Some p -> slc_phase st' (nth t (st_dates st) ""%string) y = Some p' ->
     cong2pi p' (p + inject_Z (Z.of_nat t))%Q) /\
  (forall pts tri i j u v pi_u pj_u pi_v pj_v, tile_pixels st b pts -> px_triangles pts = Ok tri -> In (i, j) (g_links gt) ->
     In (u, v) (g_links (delaunay (length pts) tri)) ->
     slc_phase st (nth i (st_dates st) ""%string) (place b (nth u pts (0, 0)%Z)) = Some pi_u -> slc_phase st (nth j (st_dates st) ""%string) (place b (nth u pts (0, 0)%Z)) = Some pj_u ->
     slc_phase st (nth i (st_dates st) ""%string) (place b (nth v pts (0, 0)%Z)) = Some pi_v -> slc_phase st (nth j (st_dates st) ""%string) (place b (nth v pts (0, 0)%Z)) = Some pj_v ->
     ~ tie (pj_u - pi_u) (pj_v - pi_v) 0) /\
  exists f, rough_unwrap st gt b = Ok f.
Proof.
  cbv zeta. split; [reflexivity|]. split; [repeat constructor; cbn; intuition discriminate|].
  split; [exact rough_readable|]. split; [exact turned_readable|]. split; [|split].
  - intros t y p p' Bt _. change (length (st_dates rough_stack)) with 4 in Bt.
    destruct t as [|[|[|[|]]]]; try lia; [|apply (turned_at 1)|apply (turned_at 2)|apply (turned_at 3)].
    intros [= <-] [= <-]. apply cong2pi_refl.
  - intros pts tri i j u v piu pju piv pjv P T I J E1 E2 E3 E4.
    assert (pts = nonzero (tile_mask rough_stack (BBox 0 0 7 2))) as ->.
    { eapply tile_pixels_unique; [exact P|]. apply mask_pixels; cbn; lia. }
    Transparent twopi.
    assert (let pts := nonzero (tile_mask rough_stack (BBox 0 0 7 2)) in
      forallb (fun ij => forallb (fun uv =>
        let ph t w := phase_or (nth t (st_dates rough_stack) ""%string) (place (BBox 0 0 7 2) (nth w pts (0, 0)%Z)) in
        negb (half_way ((ph (snd ij) (snd uv) - ph (fst ij) (snd uv)) - (ph (snd ij) (fst uv) - ph (fst ij) (fst uv))))%Q)
        (g_links (delaunay (length pts) (strip (length pts))))) (g_links (hop3_graph 4)) = true) as K by (vm_compute; reflexivity).
    Opaque twopi.
    cbv zeta in K. rewrite forallb_forall in K. specialize (K _ I). rewrite forallb_forall in K.
    assert (tri = strip (length (nonzero (tile_mask rough_stack (BBox 0 0 7 2))))) as ->.
    { unfold px_triangles in T. destruct (_ <? 3); congruence. }
    specialize (K _ J). cbn [fst snd] in K. unfold phase_or in K. rewrite E1, E2, E3, E4 in K.
    apply half_way_tie. now apply negb_true_iff.
  - destruct (C65_tile cert_smcf px_triangles (fun _ l => rev l) (@rev nat) 4 (Settings Constant Constant 2 0 0) [] [] (fun _ => []) (fun _ => [])
      cert_smcf_sound px_planar (fun _ l => Permutation_sym (Permutation_rev l)) (fun l => Permutation_sym (Permutation_rev l)) ltac:(cbn; lia) cert_smcf_complete ltac:(cbn; lia)
      rough_stack (hop3_graph 4) (BBox 0 0 7 2) eq_refl) as (f & E).
    + repeat constructor; cbn; intuition discriminate.
    + cbn. lia.
    + cbn. lia.
    + exact rough_readable.
    + exists (repeat 1%Z 6). split; [reflexivity|]. split; [reflexivity|]. split; [|vm_compute; discriminate]. intros x I. apply repeat_spec in I. lia.
    + intros pts P. destruct (rough_triangles 2 pts ltac:(lia) P) as [(tri & T) _]. exists tri. split; [exact T|].
      eexists. split; [reflexivity|]. apply repeat_length.
    + exists f. exact E.
Qed.

Print Assumptions C73_tile.
