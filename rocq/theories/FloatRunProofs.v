(** The rounded merge of tiles that show one field up to whole cycles and a small
    error. *)
From Verif Require Import Base BaseLemmas PoolProofs GraphModel GraphSpec TileModel TileSpec OverlapModel OverlapSpec BulkModel BulkSpec BulkProofs
  MergeModel MergeSpec BandProofs AdjustProofs DescribeProofs Props_Bulk Props_Merge SlcModel SlcSpec UnwrapTileModel UnwrapTileProofs PipelineSpec PipelineProofs ExactSpec ExactBulkProofs
  FloatMcfSpec FloatMcfRound FloatPhaseProofs FloatMergeModel FloatMergeSpec FloatMergeRun FloatResidueProofs Props_FloatMerge FloatRunModel TotalProofs TotalMergeProofs ExactMergeProofs.
From Coq Require Import String.
From Coq Require Import List Sorting.Sorted ZifyBool Lqa.
Import ListNotations.
Set Default Goal Selector "!".
Local Open Scope Q_scope.
Opaque twopi.

(** Every label has a reference. *)
Lemma reference_ex labels counts j : (j < length labels)%nat ->
  exists r, reference labels counts r /\ nth r labels O = nth j labels O.
Proof.
  intros Bj. set (good r n := (r < n)%nat /\ nth r labels O = nth j labels O /\
    forall v, (v < n)%nat -> nth v labels O = nth j labels O -> (nth v counts 0 <= nth r counts 0)%Z /\ ((v < r)%nat -> (nth v counts 0 < nth r counts 0)%Z)).
  assert (forall n, (forall v, (v < n)%nat -> nth v labels O <> nth j labels O) \/ exists r, good r n) as K.
  { induction n as [|n [IH|(r & Br & Er & Hr)]]; [left; intros v B; lia| |].
    - destruct (Nat.eq_dec (nth n labels O) (nth j labels O)) as [En|En].
      + right. exists n. split; [lia|]. split; [exact En|]. intros z Bz Ez. destruct (Nat.eq_dec z n) as [->|Nz]; [lia|]. destruct (IH z); [lia|exact Ez].
      + left. intros z Bz. destruct (Nat.eq_dec z n) as [->|Nz]; [exact En|apply IH; lia].
    - right. destruct (Nat.eq_dec (nth n labels O) (nth j labels O)) as [En|En].
      + destruct (Z.le_gt_cases (nth n counts 0%Z) (nth r counts 0%Z)) as [C|C].
        * exists r. split; [lia|]. split; [exact Er|]. intros z Bz Ez. destruct (Nat.eq_dec z n) as [->|Nz]; [lia|]. apply Hr; [lia|exact Ez].
        * exists n. split; [lia|]. split; [exact En|]. intros z Bz Ez. destruct (Nat.eq_dec z n) as [->|Nz]; [lia|]. destruct (Hr z ltac:(lia) Ez). lia.
      + exists r. split; [lia|]. split; [exact Er|]. intros z Bz Ez. destruct (Nat.eq_dec z n) as [->|Nz]; [congruence|]. apply Hr; [lia|exact Ez]. }
  destruct (K (length labels)) as [No|(r & Br & Er & Hr)]; [now destruct (No j Bj)|].
  exists r. split; [|exact Er]. split; [exact Br|]. intros v Bv Ev. apply Hr; [exact Bv|congruence].
Qed.

(** One choice for each of finitely many. *)
Lemma choose {A} (P : nat -> A -> Prop) (a0 : A) n : (forall q, (q < n)%nat -> exists m, P q m) -> exists g, forall q, (q < n)%nat -> P q (g q).
Proof.
  induction n as [|n IH]; intros H; [exists (fun _ => a0); intros q B; lia|].
  destruct IH as (g & Hg); [intros q B; apply H; lia|]. destruct (H n ltac:(lia)) as (m & Hm).
  exists (fun q => if Nat.eq_dec q n then m else g q). intros q B. destruct (Nat.eq_dec q n) as [->|N]; [exact Hm|apply Hg; lia].
Qed.

Lemma recorded_same f files exact : length files = length exact ->
  (forall n, (n < length files)%nat -> file_coords (nth n files dfile) = file_coords (nth n exact dfile)) ->
  recorded_files f exact -> recorded_files f files.
Proof.
  intros L C H ts E. specialize (H (map (fun g => Tile g [] [] [] 0) exact)). rewrite map_map, map_id in H. specialize (H eq_refl).
  assert (length ts = length files) as Lt by (rewrite <- E; now rewrite map_length).
  unfold recorded in *. fold dtile in *. rewrite map_length in H. destruct H as (H1 & H2 & H3 & H4). rewrite Lt, L. split; [exact H1|]. split; [exact H2|]. split; [exact H3|].
  intros g i j I Eg. destruct (H4 g i j I Eg) as (G1 & G2 & G3 & G4). split; [exact G1|]. split; [exact G2|]. split; [exact G3|].
  intros p q. rewrite G4.
  assert (forall i, coords (nth i ts dtile) = coords (nth i (map (fun g => Tile g [] [] [] 0) exact) dtile)) as Cc.
  { intros n. destruct (Nat.lt_ge_cases n (length files)) as [B|B].
    - unfold coords. rewrite (nth_indep (map _ exact) dtile (Tile dfile [] [] [] 0)) by (rewrite map_length; lia). rewrite (map_nth (fun g => Tile g [] [] [] 0)). cbn [t_file].
      rewrite <- C by exact B. f_equal. rewrite <- E. symmetry. apply map_nth'. lia.
    - rewrite !nth_overflow; [reflexivity|rewrite map_length; lia|lia]. }
  unfold point_of. rewrite !Cc. reflexivity.
Qed.

Lemma max_degree_le cs sh m N : get_max_degree cs sh = Ok m ->
  (forall x, (length (filter (fun c => existsb (point_eqb x) c) cs) <= N)%nat) -> (m <= N)%nat.
Proof.
  unfold get_max_degree. destruct (forallb _ _); [|discriminate]. cbn [negb]. destruct (_ =? 0)%Z; [discriminate|]. intros E H.
  apply (f_equal (fun r => match r with Ok k => k | Err _ => O end)) in E. cbv beta iota in E. subst m.
  apply list_max_le, Forall_forall. intros n I. apply in_map_iff in I as (x & <- & _). specialize (H x).
  etransitivity; [apply Nat.mod_le; lia|exact H].
Qed.

Transparent twopi.
Lemma twopi_low : 25 # 4 <= twopi.
Proof. vm_compute. discriminate. Qed.
Opaque twopi.

Section Run.
  Context (fl fd fc : Q -> Q) (u v : Q) (K : Q).
  Context (comps : nat -> list (nat * nat) -> list nat) (minp : Z) (mip_solve : mip -> option (list Z)) (lsq : list (list Q) -> list Q -> list Q)
          (solve : list (Z * Z) -> list bool -> list Q -> res (list Q)).
  Context (st : slc_stack Q) (t : tileset) (files : list tile_file) (bands N : nat).
  Context (D : nat -> Z * Z -> Q) (M : nat -> nat -> Z) (e C P R : Q).
  (* formats and solvers *)
  Hypothesis Hl : rounding fl u.
  Hypothesis Hd : rounding fd v.
  Hypothesis Hfc : rounding fc v.
  Hypothesis Hu : u <= 1 # 1000.
  Hypothesis Hvu : v <= u.
  Hypothesis HK : 1 <= K.
  Hypothesis Hs : amplifies K solve.
  Hypothesis Hmip : mip_sound mip_solve.
  Hypothesis Hcomp : components_ok comps.
  (* the tiles *)
  Hypothesis Hvalid : forall x, valid_pixel st x -> in_shape (shape t) x = true.
  Hypothesis Hfit : (fst (shape t) * snd (shape t) <= 2 ^ 32)%Z.
  Hypothesis Hlen : length files = ntiles t.
  Hypothesis HF : forall q, (q < ntiles t)%nat -> let f := nth q files dfile in
    tf_tile f = tile_at t q /\ tile_bands bands f /\ StronglySorted before (tf_points f) /\
    forall x, In x (file_coords f) <-> valid_pixel st x /\ has_pixel (tile_at t q) (fst x) (snd x).
  Hypothesis HN : overlap_at_most N files.
  Hypothesis Hlinked : forall q q' x, (q < ntiles t)%nat -> (q' < ntiles t)%nat -> valid_pixel st x ->
    has_pixel (tile_at t q) (fst x) (snd x) -> has_pixel (tile_at t q') (fst x) (snd x) -> linked st minp t q q'.
  (* the phases *)
  Hypothesis HM : forall k q p x, (k < bands)%nat -> (q < ntiles t)%nat -> nth_error (file_coords (nth q files dfile)) p = Some x ->
    within e (MergeSpec.phase_of (nth q files dfile) k p) (D k x + twopi * inject_Z (M k q)) /\ Qabs (D k x + twopi * inject_Z (M k q)) <= C.
  Hypothesis HMP : forall k q, (k < bands)%nat -> (q < ntiles t)%nat -> Qabs (twopi * inject_Z (M k q)) <= P + C.
  Hypothesis HP : forall k x, (k < bands)%nat -> valid_pixel st x -> Qabs (D k x) <= P.
  (* sizes *)
  Hypothesis He : 0 <= e.
  Hypothesis HC : 0 <= C.
  Hypothesis HP0 : 0 <= P.
  Hypothesis HRC : C + 1 <= R.
  Hypothesis HRP : 2 * P + C <= R.
  Hypothesis HR : R <= 100000.
  Hypothesis Hover : e + 5 * u * R <= 1 # 40.
  Hypothesis Hun : inject_Z (Z.of_nat N) * u <= 1 # 100.
  Hypothesis HuR : u * (R + 2) <= 1 # 100.
  Let h := 2 * u * inject_Z (Z.of_nat N) * (R + 10 * K).
  Hypothesis Hh : h <= 1 # 10.
  Hypothesis Hdr : drift K h (N - 1) (e + 6 * u * (R + 1)) <= 1.

  Notation f_ q := (nth q files dfile).
  Let ex (q : nat) : tile_file := TileFile (tf_points (f_ q)) (tf_tile (f_ q))
    (map (fun k => map (fun x => D k x + twopi * inject_Z (M k q) - nth k (tf_offset (f_ q)) 0) (file_coords (f_ q))) (seq 0 bands)) (tf_offset (f_ q)).
  Let exact : list tile_file := map ex (seq 0 (ntiles t)).

  Lemma ex_nth q : (q < ntiles t)%nat -> nth q exact dfile = ex q.
  Proof using. intros B. unfold exact. rewrite (map_nth' _ _ _ O) by (now rewrite seq_length). now rewrite seq_nth. Qed.
  Lemma ex_coords q : file_coords (ex q) = file_coords (f_ q).
  Proof using. reflexivity. Qed.
  Lemma coords_length f : length (file_coords f) = length (tf_points f).
  Proof using. unfold file_coords. apply map_length. Qed.
  Lemma ex_phase k q p x : (k < bands)%nat -> nth_error (file_coords (f_ q)) p = Some x ->
    MergeSpec.phase_of (ex q) k p == D k x + twopi * inject_Z (M k q).
  Proof using.
    intros Bk Ex. unfold MergeSpec.phase_of, at_, ex. cbn [tf_uw tf_offset].
    rewrite (map_nth' _ _ _ O) by (now rewrite seq_length). rewrite seq_nth by exact Bk. cbn [Nat.add].
    rewrite (nth_error_nth _ _ 0 (map_nth_error _ _ _ Ex)). ring.
  Qed.
  Lemma In_file g : In g files -> exists q, (q < ntiles t)%nat /\ g = f_ q.
  Proof using Hlen. intros I. apply (In_nth _ _ dfile) in I as (q & B & <-). exists q. split; [lia|reflexivity]. Qed.
  Lemma In_ex g : In g exact -> exists q, (q < ntiles t)%nat /\ g = ex q.
  Proof using D Hlen M bands ex exact files t. intros I. apply in_map_iff in I as (q & <- & I). apply in_seq in I. exists q. split; [lia|reflexivity]. Qed.

  Lemma ex_near q : (q < ntiles t)%nat -> near_file e (f_ q) (ex q).
  Proof using HF HM He Hlen.
    intros B. split; [reflexivity|]. split; [reflexivity|]. intros b p. destruct (HF q B) as (_ & (T1 & T2 & T3) & _ & _).
    change OverlapSpec.phase_of with MergeSpec.phase_of.
    destruct (Nat.lt_ge_cases b bands) as [Bb|Bb].
    - destruct (Nat.lt_ge_cases p (length (tf_points (f_ q)))) as [Bp|Bp].
      + pose proof (nth_error_nth' (file_coords (f_ q)) (0, 0)%Z (n := p) ltac:(rewrite coords_length; exact Bp)) as Ex.
        destruct (HM b q p _ Bb B Ex) as [W _]. unfold within in W. rewrite (ex_phase b q p _ Bb Ex). exact W.
      + unfold MergeSpec.phase_of, at_, ex. cbn [tf_uw tf_offset].
        rewrite (nth_overflow (nth b (tf_uw (f_ q)) []) 0) by (rewrite (T3 (nth b (tf_uw (f_ q)) [])); [exact Bp|apply nth_In; lia]).
        rewrite (map_nth' _ _ _ O) by (now rewrite seq_length). rewrite (nth_overflow (map _ (file_coords _)) 0) by (now rewrite map_length, coords_length).
        setoid_replace (0 + nth b (tf_offset (f_ q)) 0 - (0 + nth b (tf_offset (f_ q)) 0)) with 0 by ring. exact He.
    - unfold MergeSpec.phase_of, at_, ex. cbn [tf_uw tf_offset].
      rewrite (nth_overflow (tf_uw (f_ q)) []) by lia. rewrite (nth_overflow (map _ (seq 0 bands)) []) by (rewrite map_length, seq_length; exact Bb).
      setoid_replace (nth p [] 0 + nth b (tf_offset (f_ q)) 0 - (nth p [] 0 + nth b (tf_offset (f_ q)) 0)) with 0 by ring. exact He.
  Qed.
  Lemma near_all : Forall2 (near_file e) files exact.
  Proof using HF HM He Hlen.
    unfold exact. rewrite <- (map_id files), <- (map_seq_nth (fun x => x) files dfile), Hlen.
    assert (forall q, In q (seq 0 (ntiles t)) -> near_file e (f_ q) (ex q)) as I by (intros q I; apply in_seq in I; apply ex_near; lia).
    induction (seq 0 (ntiles t)) as [|q l IH]; cbn [map]; constructor; [apply I; now left|]. apply IH. intros z Iz. apply I. now right.
  Qed.

  Lemma ex_bands g : In g exact -> tile_bands bands g.
  Proof using D HF Hlen M bands ex exact files st t.
    intros I. destruct (In_ex g I) as (q & B & ->). destruct (HF q B) as (_ & (_ & T2 & _) & _ & _). unfold tile_bands, ex. cbn [tf_uw tf_offset tf_points].
    split; [now rewrite map_length, seq_length|]. split; [exact T2|]. intros r J. apply in_map_iff in J as (k & <- & _). now rewrite map_length, coords_length.
  Qed.
  Lemma file_bands g : In g files -> tile_bands bands g.
  Proof using HF Hlen. intros I. destruct (In_file g I) as (q & B & ->). apply (HF q B). Qed.
  Lemma grid q : (q < ntiles t)%nat -> in_grid (fst (shape t)) (snd (shape t)) (file_coords (f_ q)).
  Proof using HF Hlen Hvalid bands files st t.
    intros B r c I. apply (HF q B) in I as [V _]. apply Hvalid in V. unfold in_shape in V. cbn [fst snd] in V. lia.
  Qed.
  Lemma ex_within : phases_within R bands exact.
  Proof using C D HM HRC Hlen M R bands e ex exact files t.
    intros g b p I Bb Bp. destruct (In_ex g I) as (q & B & ->). cbn [tf_points ex] in Bp.
    pose proof (nth_error_nth' (file_coords (f_ q)) (0, 0)%Z (n := p) ltac:(rewrite coords_length; exact Bp)) as Ex.
    change OverlapSpec.phase_of with MergeSpec.phase_of. rewrite (ex_phase b q p _ Bb Ex). destruct (HM b q p _ Bb B Ex) as [_ W]. lra.
  Qed.
  Lemma ex_whole : whole_cycles bands exact.
  Proof using D Hlen M bands ex exact files t.
    intros f g x p q b If Ig Px Qx Bb. destruct (In_ex f If) as (i & Bi & ->), (In_ex g Ig) as (j & Bj & ->).
    change OverlapSpec.phase_of with MergeSpec.phase_of. unfold file_point in Px, Qx. rewrite ex_coords in Px, Qx.
    exists (M b j - M b i)%Z. rewrite (ex_phase b i p x Bb Px), (ex_phase b j q x Bb Qx), inject_Z_sub. ring.
  Qed.

  Lemma cycles_small k q : (k < bands)%nat -> (q < ntiles t)%nat -> (Z.abs (M k q) <= 2 ^ 29)%Z.
  Proof using C HMP HR HRC HRP Hlen M P R bands files t.
    intros Bk B. pose proof (HMP k q Bk B) as H. rewrite Qabs_Qmult, (Qabs_pos twopi) in H by (pose proof twopi_pos; lra).
    change (Qabs (inject_Z (M k q))) with (inject_Z (Z.abs (M k q))) in H. rewrite Zle_Qle.
    assert (0 <= inject_Z (Z.abs (M k q))) as N0 by (change 0 with (inject_Z 0); rewrite <- Zle_Qle; lia).
    assert (6 * inject_Z (Z.abs (M k q)) <= twopi * inject_Z (Z.abs (M k q))) as T by (apply Qmult_le_compat_r; [pose proof twopi_lo; lra|exact N0]).
    change (inject_Z (2 ^ 29)) with 536870912. lra.
  Qed.

  Lemma run_links f : compute_phasediff_deciles comps minp exact t = Ok f ->
    forall a b, (a < ntiles t)%nat -> linked st minp t a b -> (b < ntiles t)%nat /\ reach (of_overlaps f) a b.
  Proof using D HF Hcomp Hfit Hlen Hvalid M bands comps ex exact files minp st t.
    intros Ecp a b Ba Lk0. induction Lk0 as [|z z' Lk0 IH Bz Bz' (l & Ndl & Nel & Cl & Vl)]; [split; [exact Ba|constructor]|].
    split; [exact Bz'|]. destruct (Nat.eq_dec z z') as [<-|Nz]; [apply IH|]. apply (reach_step _ _ z); [apply IH|].
    assert (forall i j, (i < ntiles t)%nat -> (j < ntiles t)%nat -> (i < j)%nat ->
      (forall x, In x l -> valid_pixel st x /\ has_pixel (tile_at t i) (fst x) (snd x) /\ has_pixel (tile_at t j) (fst x) (snd x)) ->
      In (i, j) (of_overlaps f)) as Hij.
    { intros i j Bi Bj Lij Vij.
      assert (incl l (common_pixels (nth i exact dfile) (nth j exact dfile))) as Inc.
      { intros x Ix. apply in_common. rewrite !ex_nth by assumption. rewrite !ex_coords. destruct (Vij x Ix) as (V1 & V2 & V3). split; [apply (HF i Bi)|apply (HF j Bj)]; auto. }
      pose proof (NoDup_incl_length Ndl Inc) as Le.
      apply (computed_pair comps minp exact t f (fst (shape t)) (snd (shape t)) Ecp (proj1 Hcomp)); auto.
      - unfold exact. now rewrite map_length, seq_length.
      - intros q Bq. rewrite ex_nth by assumption. apply (HF q Bq).
      - intros g I. destruct (In_ex g I) as (q & Bq & ->). apply before_nodup, (HF q Bq).
      - intros g I. destruct (In_ex g I) as (q & Bq & ->). rewrite ex_coords. now apply grid.
      - intros q x Bq X. rewrite ex_nth, ex_coords in X by assumption. apply (HF q Bq), X.
      - intros X. rewrite X in Le. destruct l; [contradiction|cbn in Le; lia].
      - lia. }
    destruct (Nat.lt_ge_cases z z') as [Cz|Cz]; [left; apply Hij; auto|right; apply Hij; auto; [lia|]]. intros x Ix. destruct (Vl x Ix) as (V1 & V2 & V3). auto.
  Qed.

  Lemma run_bulk f bulk rr k : (k < bands)%nat -> compute_phasediff_deciles comps minp exact t = Ok f ->
    get_bulk_offsets mip_solve lsq "integer"%string f t (stack_mask st) = Ok (bulk, rr) ->
    exists c : nat -> Z, length bulk = bands /\ length (nth k bulk []) = ntiles t /\
      (forall a b, (a < ntiles t)%nat -> linked st minp t a b -> c a = c b) /\
      forall j, (j < ntiles t)%nat -> nth j (nth k bulk []) 0 == inject_Z (M k j - c j) /\ Qabs (twopi * inject_Z (c j)) <= P + C.
  Proof using C D HF HMP HR HRC HRP Hcomp Hfit Hlen Hmip Hvalid M P R bands comps ex exact files lsq minp mip_solve st t.
    intros Bk Ecp Egb.
    assert (length exact = ntiles t) as Lex by (unfold exact; now rewrite map_length, seq_length).
    destruct (bulk_right comps minp exact t f (fst (shape t)) (snd (shape t)) Ecp (proj1 Hcomp) Lex) with
      (bands := bands) (D := D) (M := M) (solve := mip_solve) (lsq := lsq) (method := "integer"%string) (arr := stack_mask st) (O := bulk) (R := rr) (k := k)
      as (Hdd & (c & Hc) & Lb & Lk); auto.
    - intros q Bq. rewrite ex_nth by assumption. apply (HF q Bq).
    - intros g I. destruct (In_ex g I) as (q & Bq & ->). apply before_nodup, (HF q Bq).
    - intros g I. destruct (In_ex g I) as (q & Bq & ->). rewrite ex_coords. now apply grid.
    - intros g I. now apply ex_bands.
    - intros k' q p x Bk' (g & Eg & Ex).
      assert (q < ntiles t)%nat as Bq by (rewrite <- Lex; apply nth_error_Some; congruence).
      rewrite <- (nth_error_nth _ _ dfile Eg) in Ex. rewrite ex_nth in * by assumption. rewrite ex_coords in Ex. now apply ex_phase.
    - split; [auto|discriminate].
    - intros i j Bi Bj. pose proof (cycles_small k i Bk Bi). pose proof (cycles_small k j Bk Bj). lia.
    - assert (forall a b, reach (of_overlaps f) a b -> (a < ntiles t)%nat -> (b < ntiles t)%nat -> c a = c b) as Cr.
      { intros a b Rab Ba Bb. apply inject_Z_injective. rewrite <- (Hc a Ba), <- (Hc b Bb).
        apply (reach_same (of_overlaps f) (fun q => inject_Z (M k q) - nth q (nth k bulk []) 0)); [|exact Rab].
        intros i j Iij. specialize (Hdd i j Iij). cbv zeta in Hdd. lra. }
      exists c. split; [exact Lb|]. split; [exact Lk|]. split.
      + intros a b Ba Lab. destruct (run_links f Ecp a b Ba Lab) as [Bb Rab]. now apply Cr.
      + intros j Bj. specialize (Hc j Bj) as Hcj. cbv zeta in Hcj. split; [rewrite inject_Z_sub; lra|].
        (* the reference of the component *)
        pose proof (bulk_int _ _ _ _ _ _ _ Egb) as [_ BI]. destruct (BI k) as (n & w & off & E1 & _ & _ & _ & Hsol); [lia|].
        destruct (C35_offsets _ _ _ _ _ _ _ Hmip Hsol) as (Ln & Hz & _).
        destruct (computed comps minp exact t f Ecp (proj1 Hcomp)) as (_ & _ & _ & Eo & Ec).
        assert (of_conn_comp f = comps (ntiles t) (of_overlaps f)) as Ecc.
        { clear -Ecp. unfold compute_phasediff_deciles in Ecp. destruct (map_res _ _); [|discriminate]. cbn [bind] in Ecp. now injection Ecp as <-. }
        destruct (reference_ex (of_conn_comp f) (map (count_valid (stack_mask st)) (tiles t)) j) as (r & Hr & Er); [lia|].
        assert (r < ntiles t)%nat as Br by (destruct Hr as [Br _]; lia).
        assert (forall p, In p (of_overlaps f) -> (fst p < snd p < ntiles t)%nat) as Hov.
        { intros p I. rewrite Eo in I. apply in_map_iff in I as (g & <- & I).
          destruct (group_pair comps minp exact t f (fst (shape t)) (snd (shape t)) Ecp (proj1 Hcomp) Lex) with (g := g) as (i' & j' & -> & B & _); auto.
          - intros q Bq. rewrite ex_nth by assumption. apply (HF q Bq).
          - intros g' I'. destruct (In_ex g' I') as (q & Bq & ->). apply before_nodup, (HF q Bq).
          - intros g' I'. destruct (In_ex g' I') as (q & Bq & ->). rewrite ex_coords. now apply grid. }
        destruct (proj2 Hcomp (ntiles t) (of_overlaps f)) as [_ Hco]; [lia|intros p I; apply Hov in I; lia|]. rewrite <- Ecc in Hco.
        assert (reach (of_overlaps f) j r) as Rjr by (apply Hco; [lia|lia|congruence]).
        rewrite (Cr j r Rjr Bj Br). specialize (Hz r Hr). specialize (Hc r Br). cbv zeta in Hc. rewrite E1 in Hc.
        change 0 with (inject_Z 0) in Hc. rewrite (map_nth inject_Z) in Hc. rewrite Hz in Hc.
        assert (inject_Z (c r) == inject_Z (M k r)) as -> by (rewrite <- Hc; ring). now apply HMP.
  Qed.

  Lemma run_field k r : (k < bands)%nat -> ntiles t <> 1%nat ->
    merged_fl fl fd fc comps minp mip_solve lsq solve t (stack_mask st) files k = Ok r ->
    exists c : nat -> Z, (forall a b, (a < ntiles t)%nat -> linked st minp t a b -> c a = c b) /\
      forall x, in_shape (shape t) x = true ->
        (forall q, (q < ntiles t)%nat -> ~ In x (file_coords (f_ q))) /\ pixel r x = None \/
        exists q y, (q < ntiles t)%nat /\ In x (file_coords (f_ q)) /\ pixel r x = Some y /\
          within (e + 11 * u * (R + 3)) y (D k x + twopi * inject_Z (c q)).
  Proof.
    intros Bk N1 Em. unfold merged_fl in Em. apply Nat.eqb_neq in N1. rewrite N1 in Em.
    destruct (compute_phasediff_deciles_fl _ _ _ _ _ _) as [f|] eqn:Ecp; [|discriminate]. cbn [bind] in Em.
    destruct (get_bulk_offsets _ _ _ _ _ _) as [[bulk rr]|] eqn:Egb; [|discriminate]. cbn [bind fst] in Em.
    destruct (overlap_map f) as [omap|] eqn:Eom; [|discriminate]. cbn [bind] in Em.
    destruct (get_max_degree _ _) as [md|] eqn:Emd; [|discriminate]. cbn [bind] in Em.
    assert (length exact = ntiles t) as Lex by (unfold exact; now rewrite map_length, seq_length).
    assert (v <= 1 # 1000) as Hv by lra. pose proof (rd_nonneg _ _ Hl) as U0.
    rewrite (C66_overlaps fl fc u v files exact t bands R e (fst (shape t)) (snd (shape t)) comps minp Hl Hfc Hu Hv near_all file_bands ex_bands Lex) in Ecp; auto.
    2: { intros n Bn. rewrite ex_nth by assumption. apply (HF n Bn). }
    2: { intros g I. destruct (In_ex g I) as (q & Bq & ->). rewrite ex_coords. now apply grid. }
    2: exact ex_within. 2: exact ex_whole.
    destruct (run_bulk f bulk rr k Bk Ecp Egb) as (c & Lb & Lk & Cl & Hc). exists c. split; [exact Cl|]. intros x Hx.
    assert (recorded_files f files) as Hrec.
    { apply (recorded_same f files exact); [lia|intros n Bn; rewrite ex_nth by lia; now rewrite ex_coords|].
      apply (computed_recorded comps minp exact t f (fst (shape t)) (snd (shape t)) Ecp (proj1 Hcomp) Lex); auto.
      - intros n Bn. rewrite ex_nth by assumption. apply (HF n Bn).
      - intros g I. destruct (In_ex g I) as (z & Bz & ->). apply before_nodup, (HF z Bz).
      - intros g I. destruct (In_ex g I) as (z & Bz & ->). rewrite ex_coords. now apply grid. }
    set (owner y := match find (fun z => existsb (point_eqb y) (file_coords (f_ z))) (seq 0 (ntiles t)) with Some z => z | None => O end).
    assert (forall y z, In y (file_coords (f_ z)) -> (z < ntiles t)%nat -> (owner y < ntiles t)%nat /\ c (owner y) = c z) as Own.
    { intros y z Iy Bz. unfold owner. destruct (find _ _) as [z'|] eqn:Ez.
      - apply find_some in Ez as [I1 I2]. apply in_seq in I1. split; [lia|]. apply existsb_exists in I2 as (y' & I2 & Ey).
        assert (y = y') as -> by (destruct y, y'; unfold point_eqb in Ey; cbn [fst snd] in Ey; f_equal; lia).
        apply (HF z Bz) in Iy as [V1 V2]. apply (HF z' ltac:(lia)) in I2 as [_ V3]. apply Cl; [lia|]. apply (Hlinked z' z y'); auto; lia.
      - pose proof (find_none _ _ Ez z) as No. cbv beta in No. specialize (No ltac:(apply in_seq; lia)). apply Bool.not_true_iff_false in No. exfalso. apply No.
        apply existsb_exists. exists y. split; [exact Iy|]. unfold point_eqb. lia. }
    set (G y := D k y + twopi * inject_Z (c (owner y))).
    assert (forall g y, In g files -> In y (file_coords g) -> - R <= G y <= R) as HG.
    { intros g y I Iy. destruct (In_file g I) as (z & Bz & ->). destruct (Own y z Iy Bz) as [Bo Eo]. unfold G.
      destruct (Hc _ Bo) as [_ H2]. apply (HF z Bz) in Iy as [Vy _]. pose proof (HP k y Bk Vy) as H1. apply abs_le in H1, H2. lra. }
    assert (shows e k G (fun j => M k j - c j)%Z files) as Hsh.
    { intros j g y p Eg Px. assert (j < ntiles t)%nat as Bj by (rewrite <- Hlen; apply nth_error_Some; congruence).
      rewrite <- (nth_error_nth _ _ dfile Eg) in *. unfold file_point in Px. destruct (HM k j p y Bk Bj Px) as [W _]. unfold within in W.
      destruct (Own y j (nth_error_In _ _ Px) Bj) as [_ Eo]. unfold G. rewrite Eo, inject_Z_sub.
      change OverlapSpec.phase_of with MergeSpec.phase_of.
      setoid_replace (D k y + twopi * inject_Z (c j) + twopi * (inject_Z (M k j) - inject_Z (c j))) with (D k y + twopi * inject_Z (M k j)) by ring. exact W. }
    assert (phases_within R bands files) as Hph.
    { intros g b p I Bb Bp. destruct (In_file g I) as (z & Bz & ->).
      pose proof (nth_error_nth' (file_coords (f_ z)) (0, 0)%Z (n := p) ltac:(rewrite coords_length; exact Bp)) as Ex.
      destruct (HM b z p _ Bb Bz Ex) as [W1 W2]. unfold within in W1. change OverlapSpec.phase_of with MergeSpec.phase_of. apply abs_le in W1, W2. apply abs_le.
      assert (0 <= u * R) by (apply Qmult_le_0_compat; lra). lra. }
    assert (md <= N)%nat as Hmd.
    { apply (max_degree_le _ _ _ _ Emd). intros y. specialize (HN y). clear -HN. revert HN. generalize N. induction files as [|g gs IH]; intros n H; cbn [map filter length] in *; [lia|].
      destruct (existsb (point_eqb y) (file_coords g)); cbn [length] in *; [|now apply IH]. destruct n; [lia|]. specialize (IH n). lia. }
    assert (0 <= u * R) as UR by (apply Qmult_le_0_compat; lra).
    destruct (C66_aligned fl fd u v solve K files f N R G (fun j => M k j - c j)%Z bands k bulk e md) with (omap := omap) (sh := shape t) (r := r) (x := x)
      as [[No Ep]|(j & g & p & y & Ej & Px & _ & Ey & _ & Wy)]; auto.
    - intros g I. destruct (In_file g I) as (z & Bz & ->). unfold file_coords. apply FinFun.Injective_map_NoDup; [|apply before_nodup, (HF z Bz)].
      intros [a b] [a' b'] Eq. cbn in Eq. injection Eq as E1 E2. f_equal; lia.
    - intros g I. now apply file_bands.
    - intros j Bj. apply Hc. lia.
    - lra.
    - lra.
    - apply Qle_trans with (2 := Hdr). apply (drift_mono K h (N - 1)); auto.
      + unfold h. rewrite <- !Qmult_assoc. apply Qmult_le_0_compat; [lra|]. apply Qmult_le_0_compat; [exact U0|]. apply Qmult_le_0_compat; [|lra].
        change 0 with (inject_Z 0). rewrite <- Zle_Qle. lia.
      + lra.
      + unfold degrees. rewrite rev_length, seq_length. lia.
    - left. split; [|exact Ep]. intros q Bq. apply No, nth_In. lia.
    - right. assert (j < ntiles t)%nat as Bj by (rewrite <- Hlen; apply nth_error_Some; congruence). exists j, y. split; [exact Bj|].
      rewrite <- (nth_error_nth _ _ dfile Ej) in Px. apply nth_error_In in Px. split; [exact Px|]. split; [exact Ey|].
      destruct (Own x j Px Bj) as [_ Eo]. unfold G in Wy. rewrite Eo in Wy. exact Wy.
  Qed.

  (** The merge of several tiles has a result. *)
  Lemma run_total k : (k < bands)%nat -> ntiles t <> 1%nat -> (0 < fst (shape t))%Z -> (0 < snd (shape t))%Z ->
    (forall q, (q < ntiles t)%nat -> tf_points (f_ q) <> []) -> (11 <= minp)%Z -> mip_complete mip_solve -> answers solve ->
    (exists a b, (a < b < ntiles t)%nat /\ overlapping st minp (tile_at t a) (tile_at t b)) ->
    exists r, merged_fl fl fd fc comps minp mip_solve lsq solve t (stack_mask st) files k = Ok r.
  Proof.
    intros Bk N1 P1 P2 Hne Hmin Hmc Hans (a0 & b0 & Bab & Oab). unfold merged_fl. apply Nat.eqb_neq in N1. rewrite N1.
    assert (length exact = ntiles t) as Lex by (unfold exact; now rewrite map_length, seq_length).
    assert (v <= 1 # 1000) as Hv by lra. pose proof (rd_nonneg _ _ Hl) as U0.
    assert (forall n, (n < ntiles t)%nat -> tf_tile (nth n exact dfile) = tile_at t n) as Ht' by (intros n Bn; rewrite ex_nth by assumption; apply (HF n Bn)).
    assert (forall g, In g exact -> NoDup (tf_points g)) as Hp' by (intros g I; destruct (In_ex g I) as (z & Bz & ->); apply before_nodup, (HF z Bz)).
    assert (forall g, In g exact -> in_grid (fst (shape t)) (snd (shape t)) (file_coords g)) as Hg'
      by (intros g I; destruct (In_ex g I) as (q & Bq & ->); rewrite ex_coords; now apply grid).
    assert (forall k j p x, (k < bands)%nat -> found exact x j p -> MergeSpec.phase_of (nth j exact dfile) k p == D k x + twopi * inject_Z (M k j)) as Hr'.
    { intros k' q p x Bk' (g & Eg & Ex).
      assert (q < ntiles t)%nat as Bq by (rewrite <- Lex; apply nth_error_Some; congruence).
      rewrite <- (nth_error_nth _ _ dfile Eg) in Ex. rewrite ex_nth in * by assumption. rewrite ex_coords in Ex. now apply ex_phase. }
    assert (forall k i j, (k < bands)%nat -> (i < ntiles t)%nat -> (j < ntiles t)%nat -> (Z.abs (M k i - M k j) <= 32767)%Z) as Hsm.
    { assert (forall k q, (k < bands)%nat -> (q < ntiles t)%nat -> (Z.abs (M k q) <= 16000)%Z) as B1.
      { intros k' q Bk' Bq. pose proof (HMP k' q Bk' Bq) as H. rewrite Qabs_Qmult, (Qabs_pos twopi) in H by (pose proof twopi_pos; lra).
        change (Qabs (inject_Z (M k' q))) with (inject_Z (Z.abs (M k' q))) in H. rewrite Zle_Qle.
        assert (0 <= inject_Z (Z.abs (M k' q))) as N0 by (change 0 with (inject_Z 0); rewrite <- Zle_Qle; lia).
        assert ((25 # 4) * inject_Z (Z.abs (M k' q)) <= twopi * inject_Z (Z.abs (M k' q))) as T by (apply Qmult_le_compat_r; [exact twopi_low|exact N0]).
        change (inject_Z 16000) with 16000. lra. }
      intros k' i j Bk' Bi Bj. pose proof (B1 k' i Bk' Bi). pose proof (B1 k' j Bk' Bj). lia. }
    rewrite (C66_overlaps fl fc u v files exact t bands R e (fst (shape t)) (snd (shape t)) comps minp Hl Hfc Hu Hv near_all file_bands ex_bands Lex); auto.
    2: exact ex_within. 2: exact ex_whole.
    destruct (overlaps_total comps minp exact t (fst (shape t)) (snd (shape t)) Lex Ht' Hp' Hg' Hfit bands ex_bands D M Hr' Hsm) as (f & Ecp); auto.
    { intros g I. destruct (In_ex g I) as (q & Bq & ->). cbn [ex tf_points]. now apply Hne. }
    rewrite Ecp. cbn [bind].
    assert (of_overlaps f <> []) as Nov.
    { destruct Oab as (l & Ndl & Nel & Cl & Vl).
      assert (incl l (common_pixels (nth a0 exact dfile) (nth b0 exact dfile))) as Inc.
      { intros x Ix. apply in_common. rewrite !ex_nth by lia. rewrite !ex_coords. destruct (Vl x Ix) as (V1 & V2 & V3).
        split; [apply (HF a0); [lia|auto]|apply (HF b0); [lia|auto]]. }
      pose proof (NoDup_incl_length Ndl Inc) as Le.
      assert (In (a0, b0) (of_overlaps f)) as I; [|intros X; rewrite X in I; destruct I].
      apply (computed_pair comps minp exact t f (fst (shape t)) (snd (shape t)) Ecp (proj1 Hcomp)); auto; try lia.
      - intros q x Bq X. rewrite ex_nth, ex_coords in X by assumption. apply (HF q Bq), X.
      - intros X. rewrite X in Le. destruct l; [contradiction|cbn in Le; lia]. }
    destruct (bulk_total comps minp exact t (fst (shape t)) (snd (shape t)) (proj1 Hcomp) Lex Ht' Hp' Hg' Hfit bands ex_bands D M Hr' Hsm
      f mip_solve lsq "integer"%string (stack_mask st) Ecp Nov) as (bulk & rr & Egb); [left; auto|].
    rewrite Egb. cbn [bind fst].
    destruct (run_bulk f bulk rr k Bk Ecp Egb) as (c & Lb & Lk & Cl & Hc).
    assert (recorded_files f files) as Hrec.
    { apply (recorded_same f files exact); [lia|intros n Bn; rewrite ex_nth by lia; now rewrite ex_coords|].
      apply (computed_recorded comps minp exact t f (fst (shape t)) (snd (shape t)) Ecp (proj1 Hcomp) Lex); auto. }
    assert (exists omap, overlap_map f = Ok omap) as (omap & Eom).
    { eexists. apply (overlap_map_ok f (map (fun fl => Tile fl [] [] [] 0) files)). apply Hrec. rewrite map_map. apply map_id. }
    rewrite Eom. cbn [bind].
    assert (forall g x, In g files -> In x (file_coords g) -> in_shape (shape t) x = true) as Ins.
    { intros g x I Ix. destruct (In_file g I) as (q & Bq & ->). apply (HF q Bq) in Ix as [V _]. now apply Hvalid. }
    destruct (max_degree_total files (shape t) Ins P1 P2) as (md & Emd). rewrite Emd. cbn [bind].
    set (owner y := match find (fun z => existsb (point_eqb y) (file_coords (f_ z))) (seq 0 (ntiles t)) with Some z => z | None => O end).
    assert (forall y z, In y (file_coords (f_ z)) -> (z < ntiles t)%nat -> (owner y < ntiles t)%nat /\ c (owner y) = c z) as Own.
    { intros y z Iy Bz. unfold owner. destruct (find _ _) as [z'|] eqn:Ez.
      - apply find_some in Ez as [I1 I2]. apply in_seq in I1. split; [lia|]. apply existsb_exists in I2 as (y' & I2 & Ey).
        assert (y = y') as -> by (destruct y, y'; unfold point_eqb in Ey; cbn [fst snd] in Ey; f_equal; lia).
        apply (HF z Bz) in Iy as [V1 V2]. apply (HF z' ltac:(lia)) in I2 as [_ V3]. apply Cl; [lia|]. apply (Hlinked z' z y'); auto; lia.
      - pose proof (find_none _ _ Ez z) as No. cbv beta in No. specialize (No ltac:(apply in_seq; lia)). apply Bool.not_true_iff_false in No. exfalso. apply No.
        apply existsb_exists. exists y. split; [exact Iy|]. unfold point_eqb. lia. }
    set (G y := D k y + twopi * inject_Z (c (owner y))).
    assert (forall g y, In g files -> In y (file_coords g) -> - R <= G y <= R) as HG.
    { intros g y I Iy. destruct (In_file g I) as (z & Bz & ->). destruct (Own y z Iy Bz) as [Bo Eo]. unfold G.
      destruct (Hc _ Bo) as [_ H2]. apply (HF z Bz) in Iy as [Vy _]. pose proof (HP k y Bk Vy) as H1. apply abs_le in H1, H2. lra. }
    assert (shows e k G (fun j => M k j - c j)%Z files) as Hsh.
    { intros j g y p Eg Px. assert (j < ntiles t)%nat as Bj by (rewrite <- Hlen; apply nth_error_Some; congruence).
      rewrite <- (nth_error_nth _ _ dfile Eg) in *. unfold file_point in Px. destruct (HM k j p y Bk Bj Px) as [W _]. unfold within in W.
      destruct (Own y j (nth_error_In _ _ Px) Bj) as [_ Eo]. unfold G. rewrite Eo, inject_Z_sub.
      change OverlapSpec.phase_of with MergeSpec.phase_of.
      setoid_replace (D k y + twopi * inject_Z (c j) + twopi * (inject_Z (M k j) - inject_Z (c j))) with (D k y + twopi * inject_Z (M k j)) by ring. exact W. }
    assert (phases_within R bands files) as Hph.
    { intros g b p I Bb Bp. destruct (In_file g I) as (z & Bz & ->).
      pose proof (nth_error_nth' (file_coords (f_ z)) (0, 0)%Z (n := p) ltac:(rewrite coords_length; exact Bp)) as Ex.
      destruct (HM b z p _ Bb Bz Ex) as [W1 W2]. unfold within in W1. change OverlapSpec.phase_of with MergeSpec.phase_of. apply abs_le in W1, W2. apply abs_le.
      assert (0 <= u * R) by (apply Qmult_le_0_compat; lra). lra. }
    assert (md <= N)%nat as Hmd.
    { apply (max_degree_le _ _ _ _ Emd). intros y. specialize (HN y). clear -HN. revert HN. generalize N. induction files as [|g gs IH]; intros n H; cbn [map filter length] in *; [lia|].
      destruct (existsb (point_eqb y) (file_coords g)); cbn [length] in *; [|now apply IH]. destruct n; [lia|]. specialize (IH n). lia. }
    assert (0 <= u * R) as UR by (apply Qmult_le_0_compat; lra).
    apply (C66_total fl fd u v solve K files f N R G (fun j => M k j - c j)%Z bands k bulk e md); auto; try lia; try lra.
    - intros g I. destruct (In_file g I) as (z & Bz & ->). unfold file_coords. apply FinFun.Injective_map_NoDup; [|apply before_nodup, (HF z Bz)].
      intros [a b] [a' b'] Eq. cbn in Eq. injection Eq as E1 E2. f_equal; lia.
    - intros g I. now apply file_bands.
    - intros j Bj. apply Hc. lia.
    - apply Qle_trans with (2 := Hdr). apply (drift_mono K h (N - 1)); auto.
      + unfold h. rewrite <- !Qmult_assoc. apply Qmult_le_0_compat; [lra|]. apply Qmult_le_0_compat; [exact U0|]. apply Qmult_le_0_compat; [|lra].
        change 0 with (inject_Z 0). rewrite <- Zle_Qle. lia.
      + lra.
      + unfold degrees. rewrite rev_length, seq_length. lia.
  Qed.

  (** A single tile. *)
  Lemma run_single k r : (k < bands)%nat -> ntiles t = 1%nat ->
    merged_fl fl fd fc comps minp mip_solve lsq solve t (stack_mask st) files k = Ok r ->
    forall x, in_shape (shape t) x = true ->
      ~ In x (file_coords (f_ 0)) /\ pixel r x = None \/
      exists y, In x (file_coords (f_ 0)) /\ pixel r x = Some y /\ within (e + 11 * u * (R + 3)) y (D k x + twopi * inject_Z (M k 0%nat)).
  Proof.
    intros Bk N1 Em x Hx. unfold merged_fl in Em. rewrite N1 in Em. cbn [Nat.eqb] in Em. unfold single_band_fl in Em. fold dfile in Em.
    destruct (negb _); [discriminate|]. destruct (negb _); [discriminate|].
    cbv zeta in Em. set (raw := map (fun x => fl (x + _)) _) in Em. injection Em as <-. rewrite tabulate_pixel by exact Hx.
    destruct (HF 0%nat ltac:(lia)) as (_ & (T1 & T2 & T3) & T4 & T5).
    assert (NoDup (file_coords (f_ 0))) as Nd.
    { unfold file_coords. apply FinFun.Injective_map_NoDup; [|now apply before_nodup].
      intros [a b] [a' b'] Eq. cbn in Eq. injection Eq as E1 E2. f_equal; lia. }
    assert (length raw = length (file_coords (f_ 0))) as Lr by (unfold raw; rewrite map_length, coords_length; apply T3, nth_In; lia).
    destruct (in_dec (fun p q : Z * Z => ltac:(decide equality; apply Z.eq_dec)) x (file_coords (f_ 0))) as [I|I].
    - right. apply In_nth_error in I as (p & Ep). exists (nth p raw 0). split; [eapply nth_error_In; eauto|].
      assert (p < length (file_coords (f_ 0)))%nat as Bp by (apply nth_error_Some; congruence). split.
      + rewrite (scatter_in _ (map Some raw) _ x p (Some 0)); [now rewrite (map_nth Some)|exact Nd|now rewrite map_length|exact Ep].
      + destruct (HM k 0%nat p x Bk ltac:(lia) Ep) as [W1 W2]. unfold within in *.
        assert (nth p raw 0 = fl (MergeSpec.phase_of (f_ 0) k p)) as ->.
        { unfold raw, MergeSpec.phase_of, at_. rewrite (nth_indep _ 0 (fl (0 + nth k (tf_offset (f_ 0)) 0))) by (fold raw; lia).
          now rewrite (map_nth (fun x => fl (x + nth k (tf_offset (f_ 0)) 0))). }
        pose proof (rd_nonneg _ _ Hl) as U0. assert (0 <= u * R) as UR by (apply Qmult_le_0_compat; lra).
        apply abs_le in W1, W2. assert (- R <= MergeSpec.phase_of (f_ 0) k p <= R) as Pb by lra.
        pose proof (rd_bound fl u Hl _ R Pb) as Rd. apply abs_le. lra.
    - left. split; [exact I|]. now rewrite scatter_out.
  Qed.
End Run.
