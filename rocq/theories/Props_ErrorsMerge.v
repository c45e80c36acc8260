(** C74, merging: which exception is raised, and exactly when. Indices and
    shapes are compared with the plain lengths of the arrays. *)
From Verif Require Import Base TileModel OverlapModel BulkModel DirichletModel MergeModel.
From Coq Require Import String.
From Coq Require Import List Lia Sorted ZifyBool.
Import ListNotations.
Set Default Goal Selector "!".
Local Open Scope nat_scope.

(** * Boolean tests as statements *)
Lemma forallb_no {A} (f : A -> bool) l : forallb f l = false <-> exists x, In x l /\ f x = false.
Proof.
  induction l as [|a t IH]; cbn.
  { split; [discriminate|intros (x & [] & _)]. }
  rewrite Bool.andb_false_iff, IH. split.
  - intros [H|(x & Hx & H)]; [exists a|exists x]; auto.
  - intros (x & [->|Hx] & H); [left|right; exists x]; auto.
Qed.
Lemma existsb_no {A} (f : A -> bool) l : existsb f l = false <-> forall x, In x l -> f x = false.
Proof.
  induction l as [|a t IH]; cbn; [tauto|]. rewrite Bool.orb_false_iff, IH. split.
  - intros [H K] x [->|Hx]; auto.
  - auto.
Qed.
Lemma mem_eqb b l : existsb (Nat.eqb b) l = true <-> In b l.
Proof.
  rewrite existsb_exists. split.
  - intros (x & Hx & E). apply Nat.eqb_eq in E. subst. exact Hx.
  - intros H. exists b. rewrite Nat.eqb_refl. auto.
Qed.
Lemma increasing_sorted l : increasing l = true <-> Sorted lt l.
Proof.
  induction l as [|a t IH]; [cbn; split; [constructor|reflexivity]|].
  destruct t as [|b t].
  { cbn. split; [repeat constructor|reflexivity]. }
  change (increasing (a :: b :: t)) with ((a <? b) && increasing (b :: t)).
  rewrite Bool.andb_true_iff, IH, Nat.ltb_lt. split.
  - intros [H K]. constructor; [exact K|constructor; exact H].
  - intros H. inversion H as [|? ? K L]; subst. inversion L; subst. auto.
Qed.
Definition inside_shape (sh p : Z * Z) : Prop := (0 <= fst p < fst sh /\ 0 <= snd p < snd sh)%Z.
Lemma in_shape_no sh p : in_shape sh p = false <-> ~ inside_shape sh p.
Proof. unfold in_shape, inside_shape. lia. Qed.
Lemma shapes_no sh (l : list (Z * Z)) : forallb (in_shape sh) l = false <-> exists p, In p l /\ ~ inside_shape sh p.
Proof.
  rewrite forallb_no. split; intros (p & Hp & H); exists p; apply in_shape_no in H || apply <- in_shape_no in H; auto.
Qed.

(** * _output.py *)

(** The bands of a batch: none is a RuntimeError, an order that does not
    increase a TypeError, a band that the file lacks an IndexError. *)
Theorem C74_bands f idx e : reset_band_index f idx = Err e <->
  (idx = [] /\ e = RuntimeError) \/
  (idx <> [] /\ ~ Sorted lt idx /\ e = TypeError) \/
  (idx <> [] /\ Sorted lt idx /\ (exists b, In b idx /\ (length (tf_uw f) <= b \/ length (tf_offset f) <= b)) /\ e = IndexError).
Proof.
  unfold reset_band_index. destruct idx as [|a t].
  { split; [intros [= <-]; auto|intros [[_ ->]|[[H _]|[H _]]]; congruence]. }
  set (idx := a :: t). assert (idx <> []) as N by discriminate. clearbody idx.
  destruct (increasing idx) eqn:I; cbn [negb].
  2:{ assert (~ Sorted lt idx) as S by (rewrite <- increasing_sorted; congruence).
      split; [intros [= <-]; auto|intros [[H _]|[(_ & _ & ->)|(_ & H & _)]]; tauto]. }
  apply increasing_sorted in I.
  destruct (forallb _ idx) eqn:F; cbn [negb].
  - split; [discriminate|]. intros [[H _]|[(_ & H & _)|(_ & _ & (b & Hb & H) & _)]]; try tauto.
    apply forallb_forall with (x := b) in F; [|exact Hb]. lia.
  - apply forallb_no in F. destruct F as (b & Hb & F).
    split; [intros [= <-]|intros [[H _]|[(_ & H & _)|(_ & _ & _ & ->)]]; try tauto].
    right; right. split; [exact N|]. split; [exact I|]. split; [|reflexivity]. exists b. split; [exact Hb|lia].
Qed.
Example C74_bands_witness : let f := TileFile [(0, 0)%Z] (BBox 0 0 1 1) [[0%Q]; [1%Q]] [0%Q; 1%Q] in
  reset_band_index f [] = Err RuntimeError /\ reset_band_index f [1; 0] = Err TypeError /\
  reset_band_index f [0; 2] = Err IndexError /\ exists t, reset_band_index f [0; 1] = Ok t.
Proof. repeat split. eexists. reflexivity. Qed.

(** Corrections can be compressed unless there are more than two of them. *)
Theorem C74_compress t e : compress_corrections t = Err e <-> 2 < length (t_corr t) /\ e = RuntimeError.
Proof.
  unfold compress_corrections. destruct (t_corr t) as [|a [|b [|c l]]].
  1-3: cbn; split; [discriminate|lia].
  match goal with |- context [madd ?x ?y :: ?r] => set (corr := madd x y :: r) end.
  assert (1 < length corr) as H.
  { unfold corr. cbn [removelast length]. lia. }
  apply Nat.ltb_lt in H. rewrite H. split; [intros [= <-]; split; [cbn; lia|reflexivity]|intros [_ ->]; reflexivity].
Qed.
Example C74_compress_witness : let t c := Tile (TileFile [(0, 0)%Z] (BBox 0 0 1 1) [[0%Q]] [0%Q]) [0] [[0%Q]] c 1 in
  compress_corrections (t [[[1%Q]]; [[2%Q]]; [[3%Q]]]) = Err RuntimeError /\ exists r, compress_corrections (t [[[1%Q]]; [[2%Q]]]) = Ok r.
Proof. repeat split. eexists. reflexivity. Qed.

(** The rasters of a band: every tile must hold the band and be corrected once,
    there must be a tile, and the points must lie in the raster. *)
Theorem C74_band ts idx sh e : merged_band ts idx sh = Err e <->
  ((exists t, In t ts /\ (~ In idx (t_idx t) \/ t_level t <> 1)) /\ e = AssertionError) \/
  (ts = [] /\ e = ValueError) \/
  (ts <> [] /\ (forall t, In t ts -> In idx (t_idx t) /\ t_level t = 1) /\
   (exists t p, In t ts /\ In p (coords t) /\ ~ inside_shape sh p) /\ e = IndexError).
Proof.
  assert (forall d, (forall t, In t ts -> In idx (t_idx t)) -> ts <> [] -> index_of idx (t_idx (last ts d)) <> None) as IO.
  { intros d H N. specialize (H (last ts d)).
    destruct (exists_last N) as (l & x & E). rewrite E, last_last in *.
    assert (In idx (t_idx x)) as K by (apply H; apply in_or_app; right; left; reflexivity). clear - K.
    induction (t_idx x) as [|a t IH]; cbn in *; [tauto|]. destruct (Nat.eqb_spec a idx); [discriminate|].
    destruct K as [K|K]; [congruence|]. apply IH in K. destruct (index_of idx t); cbn; congruence. }
  unfold merged_band.
  destruct (forallb (fun t => existsb (Nat.eqb idx) (t_idx t)) ts) eqn:F1; cbn [negb].
  2:{ apply forallb_no in F1. destruct F1 as (t & Ht & F1).
      assert (~ In idx (t_idx t)) as N by (rewrite <- mem_eqb; congruence).
      split; [intros [= <-]; left; split; [exists t; auto|reflexivity]|].
      intros [[_ ->]|[[-> _]|(_ & H & _)]]; [reflexivity|destruct Ht|]. apply H in Ht. tauto. }
  assert (forall t, In t ts -> In idx (t_idx t)) as A1.
  { intros t Ht. apply mem_eqb. apply forallb_forall with (x := t) in F1; assumption. }
  destruct (forallb (fun t => t_level t =? 1) ts) eqn:F2; cbn [negb].
  2:{ apply forallb_no in F2. destruct F2 as (t & Ht & F2). apply Nat.eqb_neq in F2.
      split; [intros [= <-]; left; split; [exists t; auto|reflexivity]|].
      intros [[_ ->]|[[-> _]|(_ & H & _)]]; [reflexivity|destruct Ht|]. apply H in Ht. tauto. }
  assert (forall t, In t ts -> t_level t = 1) as A2.
  { intros t Ht. apply forallb_forall with (x := t) in F2; [|assumption]. apply Nat.eqb_eq. exact F2. }
  destruct (index_of idx _) as [ind|] eqn:E.
  2:{ assert (ts = []) as -> by (destruct ts; [reflexivity|exfalso; eapply IO; eauto; discriminate]).
      split; [intros [= <-]; auto|]. intros [[(t & [] & _) _]|[[_ ->]|(H & _)]]; [reflexivity|tauto]. }
  assert (ts <> []) as N by (intros ->; cbn in E; discriminate).
  destruct (forallb (fun t => forallb (in_shape sh) (coords t)) ts) eqn:F3; cbn [negb].
  - split; [discriminate|]. intros [[(t & Ht & H) _]|[[H _]|(_ & _ & (t & p & Ht & Hp & H) & _)]]; [|tauto|].
    + specialize (A1 t Ht). specialize (A2 t Ht). tauto.
    + apply forallb_forall with (x := t) in F3; [|exact Ht]. apply forallb_forall with (x := p) in F3; [|exact Hp].
      apply in_shape_no in H. congruence.
  - apply forallb_no in F3. destruct F3 as (t & Ht & F3). apply shapes_no in F3. destruct F3 as (p & Hp & F3).
    split; [intros [= <-]|intros [[(u & Hu & H) _]|[[H _]|(_ & _ & _ & ->)]]; [|tauto|reflexivity]].
    + right; right. repeat split; auto. exists t, p. auto.
    + specialize (A1 u Hu). specialize (A2 u Hu). tauto.
Qed.
Definition at_level (l : nat) (idx : list nat) (p : Z * Z) : tile :=
  Tile (TileFile [p] (BBox 0 0 2 2) [[0%Q]] [0%Q]) idx [[0%Q]] [[[1%Q]]] l.
Example C74_band_witness :
  merged_band [at_level 1 [0] (0, 0)%Z; at_level 2 [0] (0, 0)%Z] 0 (2, 2)%Z = Err AssertionError /\
  merged_band [at_level 1 [0] (0, 0)%Z; at_level 1 [1] (0, 0)%Z] 0 (2, 2)%Z = Err AssertionError /\
  merged_band [] 0 (2, 2)%Z = Err ValueError /\
  merged_band [at_level 1 [0] (0, 0)%Z; at_level 1 [0] (1, 2)%Z] 0 (2, 2)%Z = Err IndexError /\
  exists r, merged_band [at_level 1 [0] (0, 0)%Z; at_level 1 [0] (1, 1)%Z] 0 (2, 2)%Z = Ok r.
Proof. repeat split. eexists. reflexivity. Qed.

(** A run with a single tile. *)
Theorem C74_single f idx sh e : single_band f idx sh = Err e <->
  e = IndexError /\ (length (tf_uw f) <= idx \/ length (tf_offset f) <= idx \/
    exists p, In p (file_coords f) /\ ~ inside_shape sh p).
Proof.
  unfold single_band. destruct (reset_band_index f [idx]) as [t|x] eqn:R; cbn [bind].
  - assert (idx < length (tf_uw f) /\ idx < length (tf_offset f) /\ coords t = file_coords f) as (L1 & L2 & ->).
    { unfold reset_band_index in R. cbn [increasing forallb negb] in R.
      destruct (_ && true) eqn:E in R; cbn [negb] in R; [|discriminate]. injection R as <-. repeat split; lia. }
    destruct (forallb (in_shape sh) (file_coords f)) eqn:F; cbn [negb].
    + split; [discriminate|]. intros (_ & [H|[H|(p & Hp & H)]]); try lia.
      apply forallb_forall with (x := p) in F; [|exact Hp]. apply in_shape_no in H. congruence.
    + apply shapes_no in F. split; [intros [= <-]; auto|intros [-> _]; reflexivity].
  - apply C74_bands in R. destruct R as [[H _]|[(_ & H & _)|(_ & _ & (b & [<-|[]] & H) & ->)]]; [discriminate| |].
    { exfalso. apply H. repeat constructor. }
    split; [intros [= <-]; tauto|intros [-> _]; reflexivity].
Qed.
Example C74_single_witness : let f := TileFile [(0, 0)%Z; (0, 1)%Z] (BBox 0 0 1 2) [[0%Q; 1%Q]] [0%Q] in
  single_band f 1 (1, 2)%Z = Err IndexError /\ single_band f 0 (1, 1)%Z = Err IndexError /\ exists r, single_band f 0 (1, 2)%Z = Ok r.
Proof. repeat split. eexists. reflexivity. Qed.

(** * _merge.py *)

(** An overlap that names a tile without a label. *)
Theorem C74_overlap_map f e : overlap_map f = Err e <->
  e = KeyError /\ exists a b, In (a, b) (of_overlaps f) /\ length (of_conn_comp f) <= Nat.max a b.
Proof.
  unfold overlap_map. destruct (existsb _ (of_overlaps f)) eqn:E.
  - apply existsb_exists in E. destruct E as ([a b] & H & E). cbn [fst snd] in E.
    split; [intros [= <-]; split; [reflexivity|exists a, b; split; [exact H|lia]]|intros [-> _]; reflexivity].
  - split; [discriminate|]. intros (_ & a & b & H & L). apply existsb_no with (x := (a, b)) in E; [|exact H].
    cbn [fst snd] in E. lia.
Qed.
Example C74_overlap_map_witness : overlap_map (OFile [] [0; 0] [(0, 2)]) = Err KeyError /\
  overlap_map (OFile [] [0; 0; 0] [(0, 2)]) = Ok [[2]; []; [0]].
Proof. repeat split. Qed.

(** Common points of a pair that was not saved. *)
Theorem C74_common f i j e : get_common_overlap f i j = Err e <->
  e = KeyError /\ forall g, In g (of_groups f) -> og_pair g <> (i, j).
Proof.
  unfold get_common_overlap. destruct (find _ (of_groups f)) as [g|] eqn:F.
  - apply find_some in F. destruct F as (Hg & E). split; [discriminate|]. intros (_ & H). exfalso. apply (H g Hg).
    destruct (og_pair g) as [a b]. cbn [fst snd] in E. f_equal; lia.
  - split; [intros [= <-]|intros [-> _]; reflexivity]. split; [reflexivity|]. intros g Hg E.
    apply find_none with (x := g) in F; [|exact Hg]. rewrite E in F. cbn [fst snd] in F. lia.
Qed.
Example C74_common_witness : let f := OFile [OGroup (0, 1) [0] [1] []] [0; 0] [(0, 1)] in
  get_common_overlap f 1 0 = Err KeyError /\ exists r, get_common_overlap f 0 1 = Ok r.
Proof. repeat split. eexists. reflexivity. Qed.

(** The largest number of tiles on a pixel. *)
Theorem C74_degree cs sh e : get_max_degree cs sh = Err e <->
  ((exists l p, In l cs /\ In p l /\ ~ inside_shape sh p) /\ e = IndexError) \/
  ((forall l p, In l cs -> In p l -> inside_shape sh p) /\ (fst sh = 0 \/ snd sh = 0)%Z /\ e = ValueError).
Proof.
  unfold get_max_degree. destruct (forallb (forallb (in_shape sh)) cs) eqn:F; cbn [negb].
  - assert (forall l p, In l cs -> In p l -> inside_shape sh p) as A.
    { intros l p Hl Hp. apply forallb_forall with (x := l) in F; [|exact Hl].
      apply forallb_forall with (x := p) in F; [|exact Hp]. unfold in_shape, inside_shape in *. lia. }
    destruct (Z.eqb_spec (fst sh * snd sh) 0) as [Z0|Z0].
    + apply Z.eq_mul_0 in Z0. split; [intros [= <-]; auto|].
      intros [[(l & p & Hl & Hp & H) _]|(_ & _ & ->)]; [|reflexivity]. specialize (A l p Hl Hp). tauto.
    + split; [discriminate|]. intros [[(l & p & Hl & Hp & H) _]|(_ & H & _)].
      * specialize (A l p Hl Hp). tauto.
      * exfalso. apply Z0. apply Z.eq_mul_0. exact H.
  - apply forallb_no in F. destruct F as (l & Hl & F). apply shapes_no in F. destruct F as (p & Hp & F).
    split; [intros [= <-]; left; split; [exists l, p; auto|reflexivity]|].
    intros [[_ ->]|(A & _)]; [reflexivity|]. specialize (A l p Hl Hp). tauto.
Qed.
Example C74_degree_witness :
  get_max_degree [[(0, 0)%Z]; [(2, 0)%Z]] (2, 2)%Z = Err IndexError /\ get_max_degree [[]; []] (0, 3)%Z = Err ValueError /\
  get_max_degree [[(0, 0)%Z]; [(1, 0)%Z; (0, 0)%Z]] (2, 2)%Z = Ok 2.
Proof. repeat split. Qed.

(** Setting a tile to the bands [idx]: the failures of [reset_band_index], then
    bulk offsets without one of the bands or without this tile. *)
Theorem C74_start f jj bulk idx e : start_tile f jj bulk idx = Err e <->
  reset_band_index f idx = Err e \/
  ((exists t, reset_band_index f idx = Ok t) /\ e = IndexError /\
   exists b, In b idx /\ (length bulk <= b \/ length (nth b bulk []) <= jj)).
Proof.
  unfold start_tile. destruct (reset_band_index f idx) as [t|x] eqn:R; cbn [bind].
  2:{ split; [intros [= <-]; auto|]. intros [[= ->]|((t & H) & _)]; [reflexivity|discriminate]. }
  assert (length (t_idx t) = length idx /\ idx <> []) as [Lt N].
  { unfold reset_band_index in R. destruct idx; [discriminate|]. split; [|discriminate].
    destruct (negb _); [discriminate|]. destruct (negb _); [discriminate|]. injection R as <-. reflexivity. }
  destruct (forallb _ idx) eqn:F; cbn [negb].
  - assert (exists m, add_correction t (A1 (map (fun b => - (twopi * nth jj (nth b bulk []) 0%Q))%Q idx)) = Ok m) as (m & ->).
    { unfold add_correction. cbn [broadcast].
      destruct idx as [|a [|b l]]; [congruence|eexists; reflexivity|]. cbn [map].
      rewrite Lt. cbn [length]. rewrite map_length, Nat.eqb_refl. eexists. reflexivity. }
    cbn [bind]. split; [discriminate|]. intros [H|(_ & _ & b & Hb & H)]; [discriminate|].
    apply forallb_forall with (x := b) in F; [|exact Hb]. lia.
  - apply forallb_no in F. destruct F as (b & Hb & F). split.
    + intros [= <-]. right. split; [exists t; reflexivity|]. split; [reflexivity|]. exists b. split; [exact Hb|lia].
    + intros [H|(_ & -> & _)]; [discriminate|reflexivity].
Qed.

(** Averaging over one neighbour. *)
Theorem C74_neighbour f ts ii c s jj e : ii <> jj -> let tj := nth_error ts jj in
  add_neighbour f ts ii (c, s) jj = Err e <->
  (tj = None /\ e = KeyError) \/
  (tj <> None /\ (forall g, In g (of_groups f) -> og_pair g <> (Nat.min ii jj, Nat.max ii jj)) /\ e = KeyError) \/
  (exists t g ci cj, tj = Some t /\
     find (fun g => (fst (og_pair g) =? Nat.min ii jj) && (snd (og_pair g) =? Nat.max ii jj)) (of_groups f) = Some g /\
     (ci, cj) = (if ii <? jj then (og_c1 g, og_c2 g) else (og_c2 g, og_c1 g)) /\
     (((exists k, In k ci /\ length c <= k) \/ (exists k, In k cj /\ npoints t <= k)) /\ e = IndexError \/
      (forall k, In k ci -> k < length c) /\ (forall k, In k cj -> k < npoints t) /\ length ci <> length cj /\ e = ValueError)).
Proof.
  intros D tj. unfold add_neighbour. subst tj. destruct (nth_error ts jj) as [t|].
  2:{ split; [intros [= <-]; auto|]. intros [[_ ->]|[(H & _)|(t & g & ci & cj & H & _)]]; [reflexivity|tauto|discriminate]. }
  set (P := find (fun g => (fst (og_pair g) =? Nat.min ii jj) && (snd (og_pair g) =? Nat.max ii jj)) (of_groups f)).
  assert ((if ii <? jj then get_common_overlap f ii jj
           else do ji <- get_common_overlap f jj ii; Ok (snd ji, fst ji))
          = match P with Some g => Ok (if ii <? jj then (og_c1 g, og_c2 g) else (og_c2 g, og_c1 g)) | None => Err KeyError end) as ->.
  { unfold P, get_common_overlap. destruct (Nat.ltb_spec ii jj).
    - rewrite Nat.min_l, Nat.max_r by lia. match goal with |- context [find ?h ?l] => destruct (find h l); reflexivity end.
    - rewrite Nat.min_r, Nat.max_l by lia. match goal with |- context [find ?h ?l] => destruct (find h l); reflexivity end. }
  assert (P = None <-> forall g, In g (of_groups f) -> og_pair g <> (Nat.min ii jj, Nat.max ii jj)) as PN.
  { split.
    - intros F g Hg E. apply find_none with (x := g) in F; [|exact Hg]. rewrite E in F. cbn [fst snd] in F. lia.
    - intros H. destruct P as [g|] eqn:F; [|reflexivity]. apply find_some in F. destruct F as (Hg & E).
      exfalso. apply (H g Hg). destruct (og_pair g) as [a b]. cbn [fst snd] in E. f_equal; lia. }
  destruct P as [g|]; cbn [bind].
  2:{ destruct PN as [PN _]. specialize (PN eq_refl). split; [intros [= <-]; right; left; repeat split; auto; discriminate|].
      intros [[H _]|[(_ & _ & ->)|(? & ? & ? & ? & _ & H & _)]]; [discriminate|reflexivity|discriminate]. }
  assert (~ (forall g, In g (of_groups f) -> og_pair g <> (Nat.min ii jj, Nat.max ii jj))) as PN'.
  { intros H. apply PN in H. discriminate. }
  destruct (if ii <? jj then _ else _) as [ci cj] eqn:Eij.
  assert (forall Q : Prop, (exists t0 g0 ci0 cj0, Some t = Some t0 /\ Some g = Some g0 /\
      (ci0, cj0) = (if ii <? jj then (og_c1 g0, og_c2 g0) else (og_c2 g0, og_c1 g0)) /\
      (((exists k, In k ci0 /\ length c <= k) \/ (exists k, In k cj0 /\ npoints t0 <= k)) /\ e = IndexError \/
       (forall k, In k ci0 -> k < length c) /\ (forall k, In k cj0 -> k < npoints t0) /\ length ci0 <> length cj0 /\ e = ValueError)) <->
     (((exists k, In k ci /\ length c <= k) \/ (exists k, In k cj /\ npoints t <= k)) /\ e = IndexError \/
      (forall k, In k ci -> k < length c) /\ (forall k, In k cj -> k < npoints t) /\ length ci <> length cj /\ e = ValueError)) as EX.
  { intros _. split.
    - intros (t0 & g0 & ci0 & cj0 & [= <-] & [= <-] & E & H). rewrite Eij in E. injection E as -> ->. exact H.
    - intros H. exists t, g, ci, cj. rewrite Eij. auto. }
  rewrite (EX True). clear EX PN.
  destruct (forallb (fun k => k <? length c) ci) eqn:F1; cbn [negb].
  2:{ apply forallb_no in F1. destruct F1 as (k & Hk & F1). apply Nat.ltb_ge in F1.
      split; [intros [= <-]; right; right; left; split; [left; exists k; auto|reflexivity]|].
      intros [[H _]|[(_ & H & _)|[[_ ->]|(H & _)]]]; [discriminate|tauto|reflexivity|]. apply H in Hk. lia. }
  assert (forall k, In k ci -> k < length c) as A1.
  { intros k Hk. apply Nat.ltb_lt. apply forallb_forall with (x := k) in F1; assumption. }
  destruct (forallb (fun k => k <? npoints t) cj) eqn:F2; cbn [negb].
  2:{ apply forallb_no in F2. destruct F2 as (k & Hk & F2). apply Nat.ltb_ge in F2.
      split; [intros [= <-]; right; right; left; split; [right; exists k; auto|reflexivity]|].
      intros [[H _]|[(_ & H & _)|[[_ ->]|(_ & H & _)]]]; [discriminate|tauto|reflexivity|]. apply H in Hk. lia. }
  assert (forall k, In k cj -> k < npoints t) as A2.
  { intros k Hk. apply Nat.ltb_lt. apply forallb_forall with (x := k) in F2; assumption. }
  assert (~ ((exists k, In k ci /\ length c <= k) \/ (exists k, In k cj /\ npoints t <= k))) as A3.
  { intros [(k & Hk & H)|(k & Hk & H)]; [apply A1 in Hk|apply A2 in Hk]; lia. }
  destruct (Nat.eqb_spec (length ci) (length cj)) as [L|L]; cbn [negb].
  - split; [discriminate|]. intros [[H _]|[(_ & H & _)|[[H _]|(_ & _ & H & _)]]]; try tauto. discriminate.
  - split; [intros [= <-]; right; right; right; auto|].
    intros [[H _]|[(_ & H & _)|[[H _]|(_ & _ & _ & ->)]]]; try tauto. discriminate.
Qed.
Definition nb_file (c1 c2 : list nat) : overlap_file :=
  OFile [OGroup (0, 1) c1 c2 []] [0; 0] [(0, 1)].
Example C74_neighbour_witness :
  let ts := [at_level 1 [0] (0, 0)%Z; at_level 1 [0] (1, 1)%Z] in
  let add c1 c2 ii jj := add_neighbour (nb_file c1 c2) ts ii ([1], [[0%Q]]) jj in
  add [0] [0] 0 2 = Err KeyError /\ add_neighbour (OFile [] [0; 0] []) ts 0 ([1], [[0%Q]]) 1 = Err KeyError /\
  add [1] [0] 0 1 = Err IndexError /\ add [0] [1] 0 1 = Err IndexError /\ add [0; 0] [0] 1 0 = Err ValueError /\
  exists r, add [0] [0] 1 0 = Ok r.
Proof. repeat split. eexists. reflexivity. Qed.

(** One tile of a pass. Line 3: what a neighbour raises is raised. *)
Theorem C74_adjust cg ilu triangles f omap degree ts ii :
  let adj := adjust_tile cg ilu triangles f omap degree ts ii in
  (length ts <= ii -> adj = Err KeyError) /\
  (forall t, nth_error ts ii = Some t -> t_level t <> 1 -> adj = Err AssertionError) /\
  (forall t, nth_error ts ii = Some t -> t_level t = 1 -> length omap <= ii -> adj = Err KeyError) /\
  (forall t l e, nth_error ts ii = Some t -> t_level t = 1 -> nth_error omap ii = Some l ->
     fold_res (add_neighbour f ts ii) (repeat 1 (npoints t), uw_phase t) l = Err e -> adj = Err e).
Proof.
  cbv zeta. unfold adjust_tile. split; [|split; [|split]].
  - intros H. apply nth_error_None in H. rewrite H. reflexivity.
  - intros t -> H. apply Nat.eqb_neq in H. rewrite H. reflexivity.
  - intros t -> -> H. apply nth_error_None in H. rewrite H. reflexivity.
  - intros t l e -> -> -> H. cbn [negb Nat.eqb]. rewrite H. reflexivity.
Qed.
Example C74_adjust_witness : forall cg ilu triangles degree,
  let ts := [at_level 1 [0] (0, 0)%Z; at_level 2 [0] (1, 1)%Z] in let f := OFile [] [0; 0] [] in
  adjust_tile cg ilu triangles f [[]; []] degree ts 2 = Err KeyError /\
  adjust_tile cg ilu triangles f [[]; []] degree ts 1 = Err AssertionError /\
  adjust_tile cg ilu triangles f [] degree ts 0 = Err KeyError /\
  adjust_tile cg ilu triangles f [[1]; [0]] degree ts 0 = Err KeyError /\
  adjust_tile cg ilu triangles f [[]; []] 2 ts 0 = Ok ts.
Proof. repeat split. Qed.

(** * utils/merge.py *)

Lemma sel_len {A B} mask : forall (l : list A) (m : list B), length l = length m -> length (sel mask l) = length (sel mask m).
Proof.
  induction mask as [|[|] mask IH]; intros [|x l] [|y m] H; cbn in *; try discriminate; auto.
Qed.
Definition square (a : list (list Q)) : Prop := forall row, In row a -> length row = length a.
Lemma square_ok a : is_square a = true <-> square a.
Proof.
  unfold is_square, square. rewrite forallb_forall. split; intros H row Hr; apply H in Hr; apply Nat.eqb_eq; exact Hr.
Qed.

(** Smoothing: a matrix that is not square, or not the size of the data, is an
    AssertionError; a failing factorisation is a RuntimeError. Nothing else. *)
Theorem C74_smooth cg ilu logging a n xf mask e : dirichlet_graph cg ilu logging a n xf mask = Err e <->
  (~ (square a /\ length a = n) /\ e = AssertionError) \/
  (square a /\ length a = n /\ ilu (free_block mask a) = false /\ e = RuntimeError).
Proof.
  unfold dirichlet_graph. destruct (is_square a) eqn:S; cbn [negb].
  2:{ assert (~ square a) as N by (rewrite <- square_ok; congruence).
      split; [intros [= <-]; tauto|intros [[_ ->]|(H & _)]; tauto]. }
  apply square_ok in S. destruct (Nat.eqb_spec (length a) n) as [L|L]; cbn [negb].
  2:{ split; [intros [= <-]; tauto|intros [[_ ->]|(_ & H & _)]; tauto]. }
  destruct (ilu _); cbn [negb].
  - assert (forall e, map_res (dirichlet_row cg logging a mask) xf <> Err e) as H.
    { induction xf as [|r xf IH]; cbn [map_res]; [discriminate|].
      assert (exists y, dirichlet_row cg logging a mask r = Ok y) as (y & ->).
      { unfold dirichlet_row, free_block. rewrite (sel_len _ _ (map (fun row => - dotQ (sel mask row) (sel mask r)) a)%Q) by now rewrite !map_length.
        rewrite Nat.eqb_refl. cbn [negb]. destruct (_ && logging); eexists; reflexivity. }
      cbn [bind]. intros e0. destruct (map_res _ xf); cbn [bind]; [discriminate|]. intros K. apply (IH e0). exact K. }
    split; [intros K; destruct (H _ K)|intros [[H' _]|(_ & _ & H' & _)]; [tauto|discriminate]].
  - split; [intros [= <-]; right; auto|]. intros [[H' _]|(_ & _ & _ & ->)]; tauto.
Qed.
Theorem C74_dirichlet cg ilu k logging a b xf mask : ~ square a -> dirichlet cg ilu k logging a b xf mask = Err AssertionError.
Proof. intros H. unfold dirichlet. rewrite <- square_ok in H. destruct (is_square a); [tauto|reflexivity]. Qed.
Example C74_smooth_witness : let a := [[2; -1]; [-1; 2]]%Q in
  dirichlet_graph (fun _ b => b) (fun _ => true) true [[1]; [2]]%Q 2 [[1; 2]]%Q [true; false] = Err AssertionError /\
  dirichlet_graph (fun _ b => b) (fun _ => true) true a 3 [[1; 2; 3]]%Q [true; false; true] = Err AssertionError /\
  dirichlet_graph (fun _ b => b) (fun _ => false) true a 2 [[1; 2]]%Q [true; false] = Err RuntimeError /\
  (exists r, dirichlet_graph (fun _ b => b) (fun _ => true) true a 2 [[1; 2]]%Q [true; false] = Ok r) /\
  (forall cg ilu, dirichlet cg ilu Dense true [[1]; [2]]%Q [0; 0]%Q [1; 2]%Q [true; false] = Err AssertionError).
Proof. repeat split. eexists. reflexivity. Qed.

Theorem C74_l2_min lsq a b e : l2_min lsq a b = Err e <-> length a <> length b /\ e = AssertionError.
Proof.
  unfold l2_min. destruct (Nat.eqb_spec (length a) (length b)); cbn [negb].
  - split; [discriminate|tauto].
  - split; [intros [= <-]; auto|intros [_ ->]; reflexivity].
Qed.

(** * _bulk_offset.py *)

Theorem C74_argmax l e : argmax l = Err e <-> l = [] /\ e = ValueError.
Proof. destruct l; cbn; split; try discriminate; [intros [= <-]; auto|intros [_ ->]; reflexivity|intros [H _]; discriminate]. Qed.

Lemma map_res_err {A B} (g : A -> res B) l e : map_res g l = Err e -> exists x, In x l /\ g x = Err e.
Proof.
  induction l as [|a t IH]; cbn [map_res]; [discriminate|]. destruct (g a) eqn:E; cbn [bind].
  - destruct (map_res g t) eqn:M; cbn [bind]; [discriminate|]. intros [= ->]. destruct (IH eq_refl) as (x & H & K). exists x. cbn. auto.
  - intros [= ->]. exists a. cbn. auto.
Qed.
Lemma map_res_fails {A B} (g : A -> res B) l x e : In x l -> g x = Err e -> exists e', map_res g l = Err e'.
Proof.
  induction l as [|a t IH]; cbn [map_res]; [intros []|]. intros [->|H] K.
  - rewrite K. eexists. reflexivity.
  - destruct (g a); cbn [bind]; [|eexists; reflexivity]. destruct (IH H K) as (e' & ->). eexists. reflexivity.
Qed.

(** No tile at all, or a label below the largest one that no tile has. *)
Theorem C74_pinned labels counts e : pinned labels counts = Err e <->
  e = ValueError /\ (labels = [] \/ exists i, i <= list_max labels /\ ~ In i labels).
Proof.
  unfold pinned. destruct labels as [|l0 lt] eqn:El.
  { split; [intros [= <-]; auto|intros [-> _]; reflexivity]. }
  rewrite <- El. assert (labels <> []) as N by (rewrite El; discriminate). clear El.
  set (conn := fun ii => filter (fun v => nth v labels 0 =? ii) (seq 0 (length labels))).
  assert (forall ii, conn ii = [] <-> ~ In ii labels) as C.
  { intros ii. unfold conn. split.
    - intros F H. apply (In_nth _ _ 0) in H. destruct H as (v & Hv & Ev).
      assert (In v (filter (fun v => nth v labels 0 =? ii) (seq 0 (length labels)))) as K.
      { apply filter_In. split; [apply in_seq; lia|rewrite Ev; apply Nat.eqb_refl]. }
      rewrite F in K. destruct K.
    - intros H. destruct (filter _ _) as [|v l] eqn:F; [reflexivity|]. exfalso. apply H.
      assert (In v (filter (fun v => nth v labels 0 =? ii) (seq 0 (length labels)))) as K by (rewrite F; left; reflexivity).
      apply filter_In in K. destruct K as (K & E). apply Nat.eqb_eq in E. subst ii. apply nth_In. apply in_seq in K. lia. }
  set (g := fun ii => do largest <- argmax (map (fun v => nth v counts 0%Z) (conn ii)); Ok (nth largest (conn ii) 0)).
  assert (forall ii e, g ii = Err e <-> conn ii = [] /\ e = ValueError) as G.
  { intros ii e'. unfold g. destruct (conn ii) as [|v l]; cbn [map argmax bind].
    - split; [intros [= <-]; auto|intros [_ ->]; reflexivity].
    - split; [discriminate|intros [H _]; discriminate]. }
  change (map_res g (seq 0 (S (list_max labels))) = Err e <-> e = ValueError /\ (labels = [] \/ exists i, i <= list_max labels /\ ~ In i labels)).
  split.
  - intros H. apply map_res_err in H. destruct H as (i & Hi & H). apply G in H. destruct H as [H ->].
    split; [reflexivity|]. right. exists i. apply in_seq in Hi. split; [lia|]. apply C. exact H.
  - intros (-> & [H|(i & Hi & H)]); [tauto|].
    destruct (map_res_fails g (seq 0 (S (list_max labels))) i ValueError) as (e' & E).
    + apply in_seq. lia.
    + apply G. split; [apply C; exact H|reflexivity].
    + rewrite E. f_equal. apply map_res_err in E. destruct E as (j & _ & E). apply G in E. tauto.
Qed.
Example C74_pinned_witness : pinned [] [] = Err ValueError /\ pinned [0; 2] [1; 1]%Z = Err ValueError /\
  pinned [0; 1; 0] [1; 1; 5]%Z = Ok [2; 1].
Proof. repeat split. Qed.

(** Overlaps among tiles that exist. *)
Definition known (n : nat) (olaps : list (nat * nat)) : Prop := forall a b, In (a, b) olaps -> a < n /\ b < n.
Lemma known_ok n olaps : existsb (fun p => (n <=? fst p) || (n <=? snd p)) olaps = false <-> known n olaps.
Proof.
  rewrite existsb_no. unfold known. split.
  - intros H a b Hab. apply H in Hab. cbn [fst snd] in Hab. lia.
  - intros H [a b] Hab. apply H in Hab. cbn [fst snd]. lia.
Qed.

(** Integer offsets: an unknown tile, then a label without a tile, then a solver
    that finds no optimum. *)
Theorem C74_integer solve olaps labels offs counts e :
  solve_int_offsets solve olaps labels offs counts = Err e <->
  (~ known (length labels) olaps /\ e = IndexError) \/
  (known (length labels) olaps /\ pinned labels counts = Err ValueError /\ e = ValueError) \/
  (known (length labels) olaps /\ e = RuntimeError /\
   exists pins, pinned labels counts = Ok pins /\ solve (offsets_mip (length labels) olaps offs pins) = None).
Proof.
  unfold solve_int_offsets. destruct (existsb _ olaps) eqn:E.
  { assert (~ known (length labels) olaps) as N by (rewrite <- known_ok; congruence).
    split; [intros [= <-]; auto|intros [[_ ->]|[(H & _)|(H & _)]]; tauto]. }
  apply known_ok in E. destruct (pinned labels counts) as [pins|x] eqn:P; cbn [bind].
  - destruct (solve _) as [y|] eqn:S.
    + split; [discriminate|]. intros [[H _]|[(_ & H & _)|(_ & _ & p & [= <-] & H)]]; [tauto|discriminate|congruence].
    + split; [intros [= <-]; right; right; split; [exact E|]; split; [reflexivity|]; exists pins; auto|].
      intros [[H _]|[(_ & H & _)|(_ & -> & _)]]; [tauto|discriminate|reflexivity].
  - assert (x = ValueError) as -> by (apply C74_pinned in P; tauto).
    split; [intros [= <-]; auto|]. intros [[H _]|[(_ & _ & ->)|(_ & _ & p & H & _)]]; [tauto|reflexivity|discriminate].
Qed.
Example C74_integer_witness :
  (forall s, solve_int_offsets s [(0, 2)] [0; 0] [1]%Z [1; 1]%Z = Err IndexError) /\
  (forall s, solve_int_offsets s [(0, 1)] [1; 1] [1]%Z [1; 1]%Z = Err ValueError) /\
  solve_int_offsets (fun _ => None) [(0, 1)] [0; 0] [1]%Z [1; 1]%Z = Err RuntimeError.
Proof. repeat split. Qed.

(** Least squares offsets. *)
Theorem C74_l2 lsq olaps offs n counts e : solve_l2_min lsq olaps offs n counts = Err e <->
  ((~ known n olaps \/ olaps = []) /\ e = IndexError) \/
  (known n olaps /\ olaps <> [] /\ (exists o, In o offs /\ length o <> length olaps) /\ e = AssertionError) \/
  (known n olaps /\ olaps <> [] /\ (forall o, In o offs -> length o = length olaps) /\ counts = [] /\ e = ValueError).
Proof.
  unfold solve_l2_min. destruct (existsb _ olaps) eqn:E.
  { assert (~ known n olaps) as N by (rewrite <- known_ok; congruence).
    split; [intros [= <-]; auto|intros [[_ ->]|[(H & _)|(H & _)]]; tauto]. }
  apply known_ok in E. destruct olaps as [|p0 pt] eqn:Eo.
  { split; [intros [= <-]; auto|intros [[_ ->]|[(_ & H & _)|(_ & H & _)]]; tauto]. }
  rewrite <- Eo in *. assert (olaps <> []) as N by (rewrite Eo; discriminate). clear Eo.
  set (cmat := map (diff_row n) olaps).
  assert (length cmat = length olaps) as Lc by apply map_length.
  destruct (map_res (l2_min lsq cmat) offs) as [results|x] eqn:R; cbn [bind].
  - assert (forall o, In o offs -> length o = length olaps) as A.
    { intros o Ho. destruct (Nat.eq_dec (length o) (length olaps)) as [|D]; [assumption|].
      destruct (map_res_fails (l2_min lsq cmat) offs o AssertionError Ho) as (e' & Ef).
      - apply C74_l2_min. split; [lia|reflexivity].
      - congruence. }
    destruct (argmax counts) as [k|y] eqn:G; cbn [bind].
    + split; [discriminate|]. intros [[[H|H] _]|[(_ & _ & (o & Ho & H) & _)|(_ & _ & _ & -> & _)]]; try tauto.
      * apply A in Ho. tauto.
      * discriminate.
    + apply C74_argmax in G. destruct G as [-> ->]. split; [intros [= <-]; right; right; auto|].
      intros [[[H|H] _]|[(_ & _ & (o & Ho & H) & _)|(_ & _ & _ & _ & ->)]]; try tauto. apply A in Ho. tauto.
  - apply map_res_err in R. destruct R as (o & Ho & R). apply C74_l2_min in R. destruct R as [R ->].
    split; [intros [= <-]; right; left; split; [exact E|]; split; [exact N|]; split; [|reflexivity]; exists o; split; [exact Ho|lia]|].
    intros [[[H|H] _]|[(_ & _ & _ & ->)|(_ & _ & H & _)]]; try tauto. apply H in Ho. lia.
Qed.
Example C74_l2_witness : forall lsq,
  solve_l2_min lsq [(0, 2)] [[1%Q]] 2 [1; 1]%Z = Err IndexError /\ solve_l2_min lsq [] [[1%Q]] 2 [1; 1]%Z = Err IndexError /\
  solve_l2_min lsq [(0, 1)] [[1%Q; 2%Q]] 2 [1; 1]%Z = Err AssertionError /\
  solve_l2_min lsq [(0, 1)] [[1%Q]] 2 [] = Err ValueError.
Proof. repeat split. Qed.

(** The whole step: a pair without a group, no pair at all, another method. *)
Theorem C74_bulk solve lsq m f t arr :
  let bulk := get_bulk_offsets solve lsq m f t arr in
  ((exists i j, In (i, j) (of_overlaps f) /\ forall g, In g (of_groups f) -> og_pair g <> (i, j)) -> bulk = Err KeyError) /\
  (of_overlaps f = [] -> bulk = Err IndexError) /\
  (of_overlaps f <> [] -> (forall i j, In (i, j) (of_overlaps f) -> exists g, In g (of_groups f) /\ og_pair g = (i, j)) ->
   m <> "integer"%string -> m <> "L2"%string -> bulk = Err RuntimeError).
Proof.
  cbv zeta. unfold get_bulk_offsets.
  set (look := fun p => match find (fun g => (fst (og_pair g) =? fst p) && (snd (og_pair g) =? snd p)) (of_groups f) with
                        | Some g => Ok g | None => Err KeyError end).
  assert (forall i j e, look (i, j) = Err e <-> e = KeyError /\ forall g, In g (of_groups f) -> og_pair g <> (i, j)) as L.
  { intros i j e. rewrite <- (C74_common f i j). unfold look, get_common_overlap. cbn [fst snd].
    match goal with |- context [find ?h ?l] => destruct (find h l) end; [split; discriminate|split; intros [= <-]; reflexivity]. }
  split; [|split].
  - intros (i & j & Hij & H).
    destruct (map_res_fails look (of_overlaps f) (i, j) KeyError Hij) as (e & E); [apply L; auto|].
    rewrite E. cbn [bind]. f_equal. apply map_res_err in E. destruct E as ([a b] & _ & E). apply L in E. tauto.
  - intros ->. reflexivity.
  - intros N A M1 M2.
    destruct (map_res look (of_overlaps f)) as [gs|e] eqn:E; cbn [bind].
    + destruct (of_overlaps f) as [|p pt]; [congruence|]. cbn [map_res] in E.
      destruct (look p); cbn [bind] in E; [|discriminate]. destruct (map_res look pt); cbn [bind] in E; [|discriminate].
      injection E as <-. cbn [map].
      apply String.eqb_neq in M1. apply String.eqb_neq in M2. rewrite M1, M2. reflexivity.
    + exfalso. apply map_res_err in E. destruct E as ([a b] & Hab & E). apply L in E. destruct E as [-> E].
      destruct (A a b Hab) as (g & Hg & K). apply (E g Hg K).
Qed.
Example C74_bulk_witness :
  let t := TileSet (1, 2)%Z [BBox 0 0 1 1; BBox 0 1 1 2] in let arr := [[true; true]] in
  let g := OGroup (0, 1) [0] [0] [[1; 1; 1; 1; 1; 1; 1; 1; 1; 1; 1]%Z] in
  forall solve lsq,
  get_bulk_offsets solve lsq "L2" (OFile [] [0; 0] [(0, 1)]) t arr = Err KeyError /\
  get_bulk_offsets solve lsq "L2" (OFile [] [0; 1] []) t arr = Err IndexError /\
  get_bulk_offsets solve lsq "median" (OFile [g] [0; 0] [(0, 1)]) t arr = Err RuntimeError.
Proof. repeat split. Qed.

Print Assumptions C74_bands.
Print Assumptions C74_compress.
Print Assumptions C74_band.
Print Assumptions C74_single.
Print Assumptions C74_overlap_map.
Print Assumptions C74_common.
Print Assumptions C74_degree.
Print Assumptions C74_start.
Print Assumptions C74_neighbour.
Print Assumptions C74_adjust.
Print Assumptions C74_smooth.
Print Assumptions C74_dirichlet.
Print Assumptions C74_l2_min.
Print Assumptions C74_argmax.
Print Assumptions C74_pinned.
Print Assumptions C74_integer.
Print Assumptions C74_l2.
Print Assumptions C74_bulk.
