(** C89: dilation links all tiles by shared pixels. *)
From Verif Require Import Base BaseLemmas FloatModel FloatProofs TileModel TileSpec TileProofs FormatSpec FormatProofs Props_Tile LinkedSpec.
From Coq Require Import List ZifyBool Lia Lqa Qround.
Import ListNotations.
Set Default Goal Selector "!".
Local Open Scope Z_scope.

(** * C89 *)

Lemma growth f n lo hi : (0 <= f)%Q -> 0 <= lo <= hi -> hi <= n -> n <= 2 ^ 52 -> edges_moved f n lo hi (grow_lo f lo hi) (grow_hi f n lo hi).
Proof.
  intros Hf H Hn Hb k Hk. unfold grow_lo, grow_hi. set (d := (f * inject_Z (hi - lo))%Q).
  assert (0 <= d)%Q as Pd by (apply Qmult_le_0_compat; [exact Hf|apply (inject_le 0); lia]).
  change (2 ^ 52) with 4503599627370496 in *.
  split; intros K; apply rnd64_mono in K; rewrite rnd64_int in K by (change (2 ^ 53) with 9007199254740992; lia).
  - split.
    + apply qtrunc_le. rewrite <- Z.max_comm. destruct (Z.max_spec (lo - k) 0) as [[A ->]|[A ->]].
      * apply Q.max_lub; [apply Qle_refl|]. assert (rnd64 (inject_Z lo - rnd64 d) <= rnd64 (inject_Z 0))%Q as B.
        { apply rnd64_mono. assert (inject_Z lo <= inject_Z k)%Q by (apply inject_le; lia). change (inject_Z 0) with 0%Q. lra. }
        rewrite rnd64_int in B by lia. exact B.
      * apply Q.max_lub; [apply (inject_le 0); lia|].
        rewrite <- (rnd64_int (lo - k)) by (change (2 ^ 53) with 9007199254740992; lia). apply rnd64_mono. unfold Z.sub. rewrite inject_Z_plus, inject_Z_opp. lra.
    + apply qtrunc_ge. apply Q.min_glb; [apply inject_le; lia|].
      apply Qle_trans with (inject_Z (hi + k)); [apply inject_le; lia|].
      rewrite <- (rnd64_int (hi + k)) by (change (2 ^ 53) with 9007199254740992; lia). apply rnd64_mono. rewrite inject_Z_plus. lra.
  - split.
    + apply qtrunc_ge. eapply Qle_trans; [|apply Q.le_max_r].
      rewrite <- (rnd64_int (lo - k)) by (change (2 ^ 53) with 9007199254740992; lia). apply rnd64_mono. unfold Z.sub. rewrite inject_Z_plus, inject_Z_opp. lra.
    + apply qtrunc_le. eapply Qle_trans; [apply Q.le_min_r|].
      rewrite <- (rnd64_int (hi + k)) by (change (2 ^ 53) with 9007199254740992; lia). apply rnd64_mono. rewrite inject_Z_plus. lra.
Qed.

(** How far the edges of a tile move when the tiles are dilated: rows and columns. *)
Theorem C89_growth f t i : (0 <= f)%Q -> (i < ntiles t)%nat -> box_in_image (shape t) (tile_at t i) ->
  fst (shape t) <= 2 ^ 52 -> snd (shape t) <= 2 ^ 52 ->
  let b := tile_at t i in let b' := tile_at (dilate f t) i in
  edges_moved f (fst (shape t)) (xmin b) (xmax b) (xmin b') (xmax b') /\
  edges_moved f (snd (shape t)) (ymin b) (ymax b) (ymin b') (ymax b').
Proof.
  intros Hf Bi Hb H1 H2 b b'. unfold box_in_image in Hb. fold b in Hb. unfold b'. rewrite tile_at_dilate by auto. fold b.
  split; cbn [dilate_box xmin xmax ymin ymax]; apply growth; auto; lia.
Qed.

Lemma one_line f lo hi : (1 # 1048576 <= f)%Q -> 0 < lo < hi -> hi <= 2 ^ 32 -> grow_lo f lo hi <= lo - 1.
Proof.
  intros Hf H Hb. change (2 ^ 32) with 4294967296 in Hb. unfold grow_lo. set (d := (f * inject_Z (hi - lo))%Q).
  assert (forall z : Z, 0 <= z <= 4294967296 * 1048576 -> (rnd64 (z # 1048576) == (z # 1048576))%Q) as Fx.
  { intros z Bz. rewrite rnd64_at. apply (nearest_fixed (52 + 1)); [apply rnd_at_nearest; lia|].
    exists z, (- (20))%Z. split; [change (Qpower 2 (- (20))) with (1 # 1048576); unfold Qeq, Qmult, inject_Z; cbn [Qnum Qden]; rewrite ?Pos2Z.inj_mul; lia|].
    change (2 ^ (52 + 1))%Z with 9007199254740992%Z. lia. }
  assert (1 # 1048576 <= d)%Q as Ld.
  { unfold d. assert (1 <= inject_Z (hi - lo))%Q as L1 by (apply (inject_le 1); lia).
    apply Qle_trans with (f * 1)%Q; [lra|]. rewrite !(Qmult_comm f). apply Qmult_le_compat_r; lra. }
  apply rnd64_mono in Ld. rewrite (Fx 1) in Ld by lia.
  assert (rnd64 (inject_Z lo - rnd64 d) <= (lo * 1048576 - 1) # 1048576)%Q as L.
  { rewrite <- Fx by lia. apply rnd64_mono.
    assert ((lo * 1048576 - 1) # 1048576 == inject_Z lo - (1 # 1048576))%Q as -> by (unfold Qeq, Qminus, Qopp, Qplus, inject_Z; cbn [Qnum Qden]; rewrite ?Pos2Z.inj_mul; lia). lra. }
  set (x := rnd64 (inject_Z lo - rnd64 d)) in *. clearbody x.
  assert (Qmax 0 x < inject_Z lo)%Q as Lx.
  { apply Q.max_lub_lt; [apply (proj2 (inject_Z_lt_iff 0 lo)); lia|].
    eapply Qle_lt_trans; [exact L|]. unfold Qlt, inject_Z. cbn [Qnum Qden]. lia. }
  unfold qtrunc. assert (Qle_bool 0 (Qmax 0 x) = true) as -> by (apply Qle_bool_iff, Q.le_max_l).
  pose proof (Qfloor_le (Qmax 0 x)) as F. assert (inject_Z (Qfloor (Qmax 0 x)) < inject_Z lo)%Q as G by lra.
  apply (proj1 (inject_Z_lt_iff _ _)) in G. lia.
Qed.

(** The lower edges move even if factor times size is less than one. *)
Theorem C89_one_line f t i : (1 # 1048576 <= f)%Q -> (i < ntiles t)%nat ->
  let b := tile_at t i in let b' := tile_at (dilate f t) i in
  (0 < xmin b < xmax b -> xmax b <= 2 ^ 32 -> xmin b' <= xmin b - 1) /\
  (0 < ymin b < ymax b -> ymax b <= 2 ^ 32 -> ymin b' <= ymin b - 1).
Proof.
  intros Hf Bi b b'. unfold b'. rewrite tile_at_dilate by auto. fold b.
  split; cbn [dilate_box xmin xmax ymin ymax]; intros H1 H2; now apply one_line.
Qed.

Lemma linked_trans P t pairs i j k : linked_by P t pairs i j -> linked_by P t pairs j k -> linked_by P t pairs i k.
Proof. induction 1; [auto|]. intros. econstructor; eauto. Qed.

(** Sharing tiles are linked. *)
Lemma sharing_linked P t i j : (i < ntiles t)%nat -> (j < ntiles t)%nat -> sharing P t i j -> linked_by P t (get_overlaps t) i j.
Proof.
  intros Bi Bj S. destruct (Nat.eq_dec i j) as [->|N]; [constructor|]. econstructor; [|exact S|constructor].
  destruct S as (p & _ & A & B). destruct (C26_overlaps t) as (_ & _ & _ & O).
  destruct (Nat.lt_ge_cases i j); [left; eapply O; eauto; lia|right; eapply O; eauto; lia].
Qed.

Section Dilated.
  Context (t : tileset) (f : Q).
  Hypothesis Hf : (1 # 1048576 <= f)%Q.
  Hypothesis Hin : Forall (box_in_image (shape t)) (tiles t).
  Hypothesis H1 : fst (shape t) <= 2 ^ 32.
  Hypothesis H2 : snd (shape t) <= 2 ^ 32.

  Lemma in_both i r c : (i < ntiles t)%nat -> has_pixel (tile_at t i) r c -> has_pixel (tile_at (dilate f t) i) r c.
  Proof using Hf Hin H1 H2.
    intros Bi. apply (C27_dilate t f); auto; [lra| |]; (eapply Z.le_trans; [eassumption|]; vm_compute; discriminate).
  Qed.

  (** A tile reaches the pixel before its first row or column. *)
  Lemma reaches i p q : (i < ntiles t)%nat -> has_pixel (tile_at t i) (fst q) (snd q) -> 0 <= fst p -> 0 <= snd p -> adjacent p q ->
    fst p + snd p < fst q + snd q -> has_pixel (tile_at (dilate f t) i) (fst p) (snd p).
  Proof using Hf Hin H1 H2.
    intros Bi Hq P1 P2 A L. pose proof (in_both i _ _ Bi Hq) as Hq'.
    assert (box_in_image (shape t) (tile_at t i)) as (I1 & I2 & I3 & I4) by (rewrite Forall_forall in Hin; apply Hin; now apply nth_In).
    revert Hq'. rewrite tile_at_dilate by auto. unfold has_pixel, dilate_box, adjacent in *. cbn [xmin xmax ymin ymax].
    assert (forall lo hi y, lo <= y < hi -> 0 < y -> 0 <= lo -> hi <= 2 ^ 32 -> grow_lo f lo hi <= y - 1) as G.
    { intros lo hi y Hy Py Pl Ph. destruct (Z.eq_dec lo 0) as [->|N].
      - assert (grow_lo f 0 hi <= 0); [|lia]. apply grow_lo_bounds; [lra|lia|]. eapply Z.le_trans; [exact Ph|]. vm_compute. discriminate.
      - pose proof (one_line f lo hi Hf ltac:(lia) Ph). lia. }
    intros Hq'. destruct p as [p1 p2], q as [q1 q2]. cbn [fst snd] in *.
    assert ((p1 = q1 - 1 /\ p2 = q2) \/ (p1 = q1 /\ p2 = q2 - 1)) as [[-> ->] | [-> ->]] by lia.
    - specialize (G (xmin (tile_at t i)) (xmax (tile_at t i)) q1 ltac:(lia) ltac:(lia) ltac:(lia) ltac:(lia)). lia.
    - specialize (G (ymin (tile_at t i)) (ymax (tile_at t i)) q2 ltac:(lia) ltac:(lia) ltac:(lia) ltac:(lia)). lia.
  Qed.

  (** Along every walk over covered pixels the dilated tiles are linked, by overlaps
      that contain a pixel of the walk's kind. *)
  Theorem C89_walk (P : Z * Z -> Prop) p q i j :
    (forall x, P x -> in_image (shape t) (fst x) (snd x) /\ exists k, (k < ntiles t)%nat /\ has_pixel (tile_at t k) (fst x) (snd x)) ->
    walk P p q -> let t' := dilate f t in (i < ntiles t')%nat -> (j < ntiles t')%nat ->
    has_pixel (tile_at t' i) (fst p) (snd p) -> has_pixel (tile_at t' j) (fst q) (snd q) ->
    linked_by P t' (get_overlaps t') i j.
  Proof using Hf Hin H1 H2.
    intros Cov W t' Bi Bj Hp Hq. revert i Bi Hp. induction W as [p Pp|p q r Pp A W IH]; intros i Bi Hp.
    - apply sharing_linked; auto. exists p. auto.
    - assert (P q) as Pq by (destruct W; auto). destruct (Cov p Pp) as ((Ip1 & Ip2) & k & Bk & Hk). destruct (Cov q Pq) as ((Iq1 & Iq2) & m & Bm & Hm).
      assert (k < ntiles t')%nat as Bk' by (unfold t'; now rewrite ntiles_dilate).
      assert (m < ntiles t')%nat as Bm' by (unfold t'; now rewrite ntiles_dilate).
      apply linked_trans with k.
      { apply sharing_linked; auto. exists p. split; [exact Pp|]. split; [exact Hp|]. now apply in_both. }
      apply linked_trans with m; [|apply IH; auto; now apply in_both].
      apply sharing_linked; auto. destruct (Z_lt_le_dec (fst p + snd p) (fst q + snd q)) as [L|L].
      + exists p. split; [exact Pp|]. split; [now apply in_both|]. apply (reaches m p q); auto; lia.
      + exists q. split; [exact Pq|]. split; [|now apply in_both]. apply (reaches k q p); auto; [lia|lia| |]; unfold adjacent in *; lia.
  Qed.
End Dilated.

(** Any two pixels of an image are linked by a walk. *)
Lemma image_walk sh p q : in_image sh (fst p) (snd p) -> in_image sh (fst q) (snd q) -> walk (fun x => in_image sh (fst x) (snd x)) p q.
Proof.
  destruct p as [a b], q as [c d]. cbn [fst snd]. intros Hp Hq.
  assert (forall n a b, Z.of_nat n = Z.abs (a - c) + Z.abs (b - d) -> in_image sh a b -> walk (fun x => in_image sh (fst x) (snd x)) (a, b) (c, d)) as K.
  { clear a b Hp. unfold in_image in *. induction n as [|n IH]; intros a b E H.
    - assert (a = c) as -> by lia. assert (b = d) as -> by lia. constructor. exact H.
    - assert (exists a' b', adjacent (a, b) (a', b') /\ Z.of_nat n = Z.abs (a' - c) + Z.abs (b' - d) /\ (0 <= a' < fst sh /\ 0 <= b' < snd sh)) as (a' & b' & A & E' & H').
      { unfold adjacent. cbn [fst snd]. destruct (Z_lt_le_dec a c); [exists (a + 1), b; lia|]. destruct (Z_lt_le_dec c a); [exists (a - 1), b; lia|].
        destruct (Z_lt_le_dec b d); [exists a, (b + 1); lia|exists a, (b - 1); lia]. }
      econstructor; [exact H|exact A|apply IH; auto]. }
  apply (K (Z.to_nat (Z.abs (a - c) + Z.abs (b - d)))); [lia|exact Hp].
Qed.

(** The tiles that [get_tiles] returns. With a dilation factor of at least 2^-20 the
    tiles along a walk are linked by overlaps with pixels of that kind, for instance
    coherent ones; and all tiles that have pixels are linked. *)
Theorem C89_tiles pick root use s s' arr t :
  picks_in_range pick -> tiler_post_init s' = Ok s ->
  (0 < length arr)%nat -> (0 < length (nth 0 arr []))%nat ->
  Z.of_nat (length arr) <= 2 ^ 32 -> Z.of_nat (length (nth 0 arr [])) <= 2 ^ 32 ->
  (forall i, (i < length arr)%nat -> length (nth i arr []) = length (nth 0 arr [])) ->
  (1 # 1048576 <= dilation_factor s)%Q -> get_tiles pick root use s arr = Ok t ->
  (forall (P : Z * Z -> Prop) p q i j, (forall x, P x -> in_image (shape t) (fst x) (snd x)) -> walk P p q ->
     (i < ntiles t)%nat -> (j < ntiles t)%nat -> has_pixel (tile_at t i) (fst p) (snd p) -> has_pixel (tile_at t j) (fst q) (snd q) ->
     linked_by P t (get_overlaps t) i j) /\
  (forall p q i j, (i < ntiles t)%nat -> (j < ntiles t)%nat -> has_pixel (tile_at t i) (fst p) (snd p) -> has_pixel (tile_at t j) (fst q) (snd q) ->
     linked_by (fun x => in_image (shape t) (fst x) (snd x)) t (get_overlaps t) i j).
Proof.
  intros Hpick Hs Hr Hc Br Bc Hrect Hd E.
  assert (2 ^ 32 <= 2 ^ 53) as L53 by (vm_compute; discriminate).
  destruct (C30_get_tiles pick root use s s' arr t Hpick Hs Hr Hc ltac:(lia) ltac:(lia) Hrect E) as (Sh & _ & F & _).
  assert (forall (P : Z * Z -> Prop) p q i j, (forall x, P x -> in_image (shape t) (fst x) (snd x)) -> walk P p q ->
     (i < ntiles t)%nat -> (j < ntiles t)%nat -> has_pixel (tile_at t i) (fst p) (snd p) -> has_pixel (tile_at t j) (fst q) (snd q) ->
     linked_by P t (get_overlaps t) i j) as K.
  { intros P p q i j HP W Bi Bj Hp Hq.
    assert (get_tiles pick root use (TilerSettings (target_points_per_tile s) (ts_max_tiles s) (target_points_for_generation s) 0) arr =
            get_tiles pick root use (TilerSettings (target_points_per_tile s) (ts_max_tiles s) (target_points_for_generation s) 0) arr) as E0 by reflexivity.
    unfold get_tiles in E, E0 at 1. cbn [target_points_per_tile ts_max_tiles target_points_for_generation dilation_factor] in E0.
    set (inner := if negb use then _ else _) in E, E0. destruct inner as [t0|] eqn:Ei; [|discriminate]. cbn [bind] in E, E0.
    change (Qle_bool 0 0) with true in E0. rewrite andb_false_r in E0. symmetry in E0.
    assert (tiler_post_init (TilerSettings (target_points_per_tile s) (ts_max_tiles s) (target_points_for_generation s) 0) =
      Ok (TilerSettings (target_points_per_tile s) (ts_max_tiles s) (target_points_for_generation s) 0)) as Hs0.
    { unfold tiler_post_init in *. destruct (ts_max_tiles s' <? 1) eqn:E1; [discriminate|].
      destruct (negb (Qle_bool 0 (dilation_factor s'))) eqn:E2; [discriminate|].
      destruct (target_points_for_generation s' <=? 0) eqn:E3; [discriminate|]. destruct (target_points_per_tile s' <=? 0) eqn:E4; [discriminate|].
      injection Hs as <-. cbn [target_points_per_tile ts_max_tiles target_points_for_generation dilation_factor]. rewrite E1, E3, E4. reflexivity. }
    destruct (C30_get_tiles pick root use _ _ arr t0 Hpick Hs0 Hr Hc ltac:(lia) ltac:(lia) Hrect E0) as (Sh0 & _ & F0 & Cov & _).
    destruct (Nat.ltb 1 (ntiles t0) && negb (Qle_bool (dilation_factor s) 0)) eqn:Ed.
    - assert (t = dilate (dilation_factor s) t0) as -> by congruence. change (shape (dilate (dilation_factor s) t0)) with (shape t0) in *.
      refine (C89_walk t0 (dilation_factor s) Hd _ _ _ P p q i j _ W Bi Bj Hp Hq).
      + rewrite Sh0. exact F0.
      + rewrite Sh0. exact Br.
      + rewrite Sh0. exact Bc.
      + intros x Px. split; [now apply HP|]. apply Cov. rewrite <- Sh0. now apply HP.
    - assert (t = t0) as -> by congruence. apply andb_false_iff in Ed as [Ed|Ed].
      + assert (i = j) as -> by lia. constructor.
      + apply negb_false_iff, Qle_bool_iff in Ed. lra. }
  split; [exact K|]. intros p q i j Bi Bj Hp Hq.
  assert (forall k x, (k < ntiles t)%nat -> has_pixel (tile_at t k) (fst x) (snd x) -> in_image (shape t) (fst x) (snd x)) as I.
  { intros k x Bk Hx. rewrite Forall_forall in F. specialize (F (tile_at t k) ltac:(now apply nth_In)). rewrite Sh. unfold box_in_image, in_image, has_pixel in *. lia. }
  apply (K _ p q); eauto. apply image_walk; eauto.
Qed.

(** Four tiles and a small factor: neighbours share one line of pixels. *)
Definition small_dilation := TilerSettings 2 16 100 (1 # 100).
Example C89_witness : exists t,
  tiler_post_init small_dilation = Ok small_dilation /\
  get_tiles pick_rows (fun _ => 2) true small_dilation (repeat (repeat true 6) 8) = Ok t /\ ntiles t = 4%nat /\
  get_overlaps t = [(0, 1); (1, 2); (2, 3)]%nat.
Proof. eexists. split; [reflexivity|]. split; [vm_compute; reflexivity|]. split; reflexivity. Qed.

(** A tile of four lines and three columns in the middle of an image: factor one half
    moves its edges by two lines and one or two columns. *)
Example C89_growth_witness : let t := TileSet (12, 10) [BBox 4 3 8 6] in
  box_in_image (shape t) (tile_at t 0) /\ tile_at (dilate (1 # 2) t) 0 = BBox 2 1 10 7.
Proof. split; [unfold box_in_image; cbn; lia|vm_compute; reflexivity]. Qed.

(** A factor that is positive but lost in rounding links nothing. *)
Theorem C89_any_factor_refuted : exists t f, (0 < f)%Q /\ Forall (box_in_image (shape t)) (tiles t) /\ partitions t /\
  forall i j, i <> j -> (i < ntiles t)%nat -> (j < ntiles t)%nat -> ~ sharing (fun _ => True) (dilate f t) i j.
Proof.
  set (t := TileSet (10, 10) [BBox 0 0 5 10; BBox 5 0 10 10]). set (f := (1 # (2 ^ 60))%Q). exists t, f.
  assert (dilate f t = t) as -> by (vm_compute; reflexivity).
  split; [reflexivity|]. split; [repeat constructor; cbn; lia|]. split.
  - intros r c [A B]. cbn [shape t fst snd] in A, B. unfold has_pixel, tile_at, ntiles. cbn [tiles t length].
    destruct (Z_lt_le_dec r 5); [exists 0%nat|exists 1%nat]; (split; [split; [lia|cbn; lia]|]); intros [|[|j]] [H K]; cbn in K; try lia; reflexivity.
  - intros i j N Bi Bj (p & _ & [A _] & [B _]). cbn [ntiles tiles t length] in Bi, Bj. unfold tile_at in A, B. cbn [tiles t] in A, B.
    destruct i as [|[|i]], j as [|[|j]]; cbn in A, B; lia.
Qed.

Print Assumptions C89_growth.
Print Assumptions C89_one_line.
Print Assumptions C89_walk.
Print Assumptions C89_tiles.
Print Assumptions C89_any_factor_refuted.
