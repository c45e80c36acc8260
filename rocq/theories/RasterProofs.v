(** Proofs about rasters. *)
From Coq Require Import Lia ZifyBool.
From Verif Require Import Base RasterModel RasterSpec.
Set Default Goal Selector "!".
Local Open Scope string_scope.
Local Open Scope nat_scope.

(** * Dicts *)
Section Dict.
  Context {V : Type}.
  Implicit Types m n : dict V.

  Lemma dget_dset k k' (v : V) m : dget k (dset k' v m) = if String.eqb k' k then Some v else dget k m.
  Proof.
    induction m as [|[a b] m IH]; cbn [dset dget].
    - reflexivity.
    - destruct (String.eqb_spec a k') as [->|N]; cbn [dget].
      + now destruct (String.eqb k' k).
      + rewrite IH. destruct (String.eqb_spec a k) as [->|]; [|reflexivity].
        destruct (String.eqb_spec k' k); [congruence|reflexivity].
  Qed.

  Lemma dget_dset_opt k k' (o : option V) m :
    dget k (dset_opt k' o m) = if String.eqb k' k then match o with Some v => Some v | None => dget k m end else dget k m.
  Proof. destruct o; cbn [dset_opt]; [apply dget_dset|]. now destruct (String.eqb k' k). Qed.

  (** The right operand wins; dicts have no duplicate keys. *)
  Lemma dget_dmerge k m n : NoDup (map fst n) ->
    dget k (dmerge m n) = match dget k n with Some v => Some v | None => dget k m end.
  Proof.
    unfold dmerge. revert m. induction n as [|[a b] n IH]; intros m Nd; cbn [fold_left fst snd dget]; [reflexivity|].
    inversion Nd as [|? ? Ni Nd']; subst. rewrite IH by exact Nd'. rewrite dget_dset. cbn [fst snd].
    destruct (String.eqb_spec a k) as [->|]; [|reflexivity].
    assert (dget k n = None) as ->; [|reflexivity].
    clear - Ni. induction n as [|[c e] n IH]; cbn [dget]; [reflexivity|]. cbn [map fst In] in Ni.
    destruct (String.eqb_spec c k) as [->|]; [tauto|]. apply IH. tauto.
  Qed.
End Dict.

(** * Windows *)
Section Pix.
  Context {V P T : Type} (d : P).
  Implicit Types (ds : dataset V P T) (b : list (list P)).

  Lemma nth_map_lt {X Y} (f : X -> Y) l i dx dy : i < length l -> nth i (map f l) dy = f (nth i l dx).
  Proof. intros H. rewrite (nth_indep _ dy (f dx)) by now rewrite map_length. apply map_nth. Qed.

  Lemma rect_length w b : length (rect d w b) = w_rows w.
  Proof. unfold rect. now rewrite map_length, seq_length. Qed.
  Lemma rect_row_length w b i : i < w_rows w -> length (nth i (rect d w b) []) = w_cols w.
  Proof.
    intros H. unfold rect. rewrite (nth_map_lt _ _ _ 0) by now rewrite seq_length.
    now rewrite map_length, seq_length.
  Qed.
  Lemma rect_nth w b i j : i < w_rows w -> j < w_cols w ->
    nth j (nth i (rect d w b) []) d = nth (w_col w + j) (nth (w_row w + i) b []) d.
  Proof.
    intros H1 H2. unfold rect. rewrite (nth_map_lt _ _ _ 0) by now rewrite seq_length.
    rewrite (nth_map_lt _ _ _ 0) by now rewrite seq_length. now rewrite !seq_nth.
  Qed.

  Lemma skipn_nth {X} k (l : list X) i dx : nth i (skipn k l) dx = nth (k + i) l dx.
  Proof. revert l. induction k as [|k IH]; intros [|x l]; cbn; try easy. now destruct i. Qed.
  Lemma firstn_nth {X} k (l : list X) i dx : i < k -> nth i (firstn k l) dx = nth i l dx.
  Proof. revert l i. induction k as [|k IH]; intros [|x l] [|i] H; cbn; try easy; try lia. apply IH. lia. Qed.

  (** Replacing a run of elements of a list. *)
  Lemma splice_length {X} (a len : nat) (new old : list X) : a + len <= length old -> length new = len ->
    length (firstn a old ++ new ++ skipn (a + len) old) = length old.
  Proof. intros H E. rewrite !app_length, firstn_length, skipn_length. lia. Qed.
  Lemma splice_nth {X} (a len : nat) (new old : list X) i dx : a + len <= length old -> length new = len ->
    nth i (firstn a old ++ new ++ skipn (a + len) old) dx
    = if (a <=? i) && (i <? a + len) then nth (i - a) new dx else nth i old dx.
  Proof.
    intros H E. assert (length (firstn a old) = a) as F by (rewrite firstn_length; lia).
    destruct (Nat.leb_spec a i) as [L|L]; cbn [andb].
    - rewrite app_nth2 by lia. rewrite F. destruct (Nat.ltb_spec i (a + len)) as [L2|L2].
      + now rewrite app_nth1 by lia.
      + rewrite app_nth2 by lia. rewrite skipn_nth. f_equal. lia.
    - rewrite app_nth1 by lia. now apply firstn_nth.
  Qed.

  Lemma patch_grid w new b h wd : grid b h wd -> inside w h wd = true -> grid new (w_rows w) (w_cols w) ->
    grid (patch w new b) h wd /\
    forall i j, nth j (nth i (patch w new b) []) d =
      if (w_row w <=? i) && (i <? w_row w + w_rows w) && (w_col w <=? j) && (j <? w_col w + w_cols w)
      then nth (j - w_col w) (nth (i - w_row w) new []) d else nth j (nth i b []) d.
  Proof.
    intros [Lb Rb] I [Ln Rn]. unfold inside in I. unfold patch.
    set (mid := map (fun nr => patch_row w (fst nr) (snd nr)) (combine new (skipn (w_row w) b))).
    assert (length mid = w_rows w) as Lm.
    { unfold mid. rewrite map_length, combine_length, skipn_length. lia. }
    assert (forall i, i < w_rows w -> nth i mid [] = patch_row w (nth i new []) (nth (w_row w + i) b [])) as Nm.
    { intros i H. unfold mid. rewrite (nth_map_lt _ _ _ (@nil P, @nil P)) by (rewrite combine_length, skipn_length; lia).
      assert (forall (l1 l2 : list (list P)), i < length l1 -> i < length l2 ->
        nth i (combine l1 l2) ([], []) = (nth i l1 [], nth i l2 [])) as Nc.
      { clear. intros l1. revert i. induction l1 as [|x l1 IH]; intros i [|y l2] H1 H2; cbn in *; try lia.
        destruct i; [reflexivity|]. apply IH; lia. }
      rewrite Nc by (rewrite ?skipn_length; lia). cbn [fst snd]. now rewrite skipn_nth. }
    split; [split|].
    - rewrite splice_length; lia.
    - intros i H. rewrite splice_nth by lia.
      destruct ((w_row w <=? i) && (i <? w_row w + w_rows w)) eqn:B; [|now apply Rb].
      rewrite Nm by lia. unfold patch_row. replace (w_row w + (i - w_row w)) with i by lia.
      rewrite splice_length; [now apply Rb|rewrite Rb by exact H; lia|apply Rn; lia].
    - intros i j. rewrite splice_nth by lia.
      destruct ((w_row w <=? i) && (i <? w_row w + w_rows w)) eqn:B; cbn [andb]; [|reflexivity].
      rewrite Nm by lia. unfold patch_row. replace (w_row w + (i - w_row w)) with i by lia.
      rewrite splice_nth; [|rewrite Rb by lia; lia|apply Rn; lia]. reflexivity.
  Qed.

  Lemma has_shape_grid {X} (v : list (list X)) h w : has_shape v h w = true <-> grid v h w.
  Proof.
    unfold has_shape, grid. rewrite Bool.andb_true_iff, Nat.eqb_eq, forallb_forall. split; intros [L R]; split; try exact L.
    - intros i H. apply Nat.eqb_eq, R, nth_In. lia.
    - intros r H. apply (In_nth _ _ []) in H as (i & H & <-). apply Nat.eqb_eq, R. lia.
  Qed.

  Lemma upd_nth_same {X} (l : list X) i x dx : i < length l -> nth i (upd l i x) dx = x.
  Proof. revert i. induction l as [|y l IH]; intros [|i] H; cbn in *; try lia; [reflexivity|]. apply IH. lia. Qed.
  Lemma upd_nth_other {X} (l : list X) i j x dx : i <> j -> nth j (upd l i x) dx = nth j l dx.
  Proof. revert i j. induction l as [|y l IH]; intros [|i] [|j] H; cbn; try lia; try reflexivity. apply IH. lia. Qed.
  Lemma upd_length' {X} (l : list X) i x : length (upd l i x) = length l.
  Proof. revert i. induction l as [|y l IH]; intros [|i]; cbn; try reflexivity. now rewrite IH. Qed.
  Lemma upd_In {X} (l : list X) i x y : In y (upd l i x) -> y = x \/ In y l.
  Proof. revert i. induction l as [|z l IH]; intros [|i]; cbn; try tauto; intros [->|H]; try tauto. apply IH in H. tauto. Qed.

  Lemma grid_ext b b' h w : grid b h w -> grid b' h w ->
    (forall i j, i < h -> j < w -> nth j (nth i b []) d = nth j (nth i b' []) d) -> b = b'.
  Proof.
    intros [L1 R1] [L2 R2] E. apply (nth_ext _ _ [] []); [lia|]. intros i H.
    apply (nth_ext _ _ d d); [rewrite R1, R2; lia|]. intros j H'. apply E; [lia|]. rewrite R1 in H'; lia.
  Qed.
End Pix.

(** * Reading and writing *)
Section Access.
  Context {V P T : Type} (d : P).
  Context (from_slices : pslice -> pslice -> nat -> nat -> res window) (FS : slices_contract from_slices).
  Context (cast : T -> P -> P).
  Implicit Types (r : raster_obj V P T).

  Lemma selects_full n : selects full_slice n 0 n.
  Proof. repeat split; cbn; lia. Qed.

  Lemma window_ok r k (r0 r1 c0 c1 : nat) : key_selects k (ds_height (ra_dataset r)) (ds_width (ra_dataset r)) r0 r1 c0 c1 ->
    window_from_slices from_slices r k = Ok (Window r0 (r1 - r0) c0 (c1 - c0)) /\
    r0 <= r1 <= ds_height (ra_dataset r) /\ c0 <= c1 <= ds_width (ra_dataset r).
  Proof using FS.
    unfold window_from_slices. destruct k as [rs|rs cs]; cbn [key_selects]; intros H.
    - destruct H as (H & -> & ->). split; [apply FS; [exact H|apply selects_full]|]. destruct H as (_ & _ & H). lia.
    - destruct H as (H1 & H2). split; [now apply FS|]. destruct H1 as (_ & _ & H1), H2 as (_ & _ & H2). lia.
  Qed.

  Lemma getitem_ok r k (r0 r1 c0 c1 : nat) : ds_closed (ra_dataset r) = false ->
    key_selects k (ds_height (ra_dataset r)) (ds_width (ra_dataset r)) r0 r1 c0 c1 ->
    exists out, ra_getitem d from_slices r k = Ok out /\ grid out (r1 - r0) (c1 - c0) /\
      forall i j, i < r1 - r0 -> j < c1 - c0 ->
        nth j (nth i out []) d = pixel d (ra_dataset r) (ra_band r) (r0 + i) (c0 + j).
  Proof using FS.
    intros O K. destruct (window_ok _ _ _ _ _ _ K) as (W & B1 & B2). unfold ra_getitem. rewrite W. cbn [bind].
    unfold ds_read. rewrite O. unfold inside. cbn [w_row w_rows w_col w_cols].
    destruct (_ && _) eqn:I; [|lia]. cbn [negb]. eexists. split; [reflexivity|]. split; [split|].
    - apply rect_length.
    - intros i H. now apply rect_row_length.
    - intros i j H1 H2. now rewrite rect_nth.
  Qed.

  Lemma setitem_ok r k (r0 r1 c0 c1 : nat) v : well_formed (ra_dataset r) ->
    1 <= ra_band r <= ds_count (ra_dataset r) ->
    ds_closed (ra_dataset r) = false -> ds_mode (ra_dataset r) = "r+" \/ ds_mode (ra_dataset r) = "w+" ->
    key_selects k (ds_height (ra_dataset r)) (ds_width (ra_dataset r)) r0 r1 c0 c1 ->
    grid v (r1 - r0) (c1 - c0) ->
    exists t ds, nth_error (ds_dtypes (ra_dataset r)) (ra_band r - 1) = Some t /\
      ra_setitem from_slices cast r k v = Ok (Raster ds (ra_band r)) /\ well_formed ds /\
      ds_height ds = ds_height (ra_dataset r) /\ ds_width ds = ds_width (ra_dataset r) /\
      ds_profile ds = ds_profile (ra_dataset r) /\ ds_count ds = ds_count (ra_dataset r) /\
      ds_closed ds = false /\ ds_mode ds = ds_mode (ra_dataset r) /\ ds_dtypes ds = ds_dtypes (ra_dataset r) /\
      ds_nodata ds = ds_nodata (ra_dataset r) /\
      (forall i j, r0 <= i < r1 -> c0 <= j < c1 -> pixel d ds (ra_band r) i j = cast t (nth (j - c0) (nth (i - r0) v []) d)) /\
      (forall i j, ~ (r0 <= i < r1 /\ c0 <= j < c1) -> pixel d ds (ra_band r) i j = pixel d (ra_dataset r) (ra_band r) i j) /\
      (forall b i j, 1 <= b -> b <> ra_band r -> pixel d ds b i j = pixel d (ra_dataset r) b i j).
  Proof using FS.
    intros (WB & WT & WN) Hb O M K G. destruct (window_ok _ _ _ _ _ _ K) as (W & B1 & B2).
    destruct r as [ds band]. cbn [ra_dataset ra_band] in *. unfold ds_count in *.
    destruct (nth_error (ds_dtypes ds) (band - 1)) as [t|] eqn:Et.
    2:{ apply nth_error_None in Et. lia. }
    exists t. unfold ra_setitem. rewrite W. cbn [bind]. unfold ds_write. cbn [ra_dataset ra_band]. rewrite O.
    assert (writable (ds_mode ds) = true) as -> by (unfold writable; destruct M as [-> | ->]; reflexivity).
    cbn [negb orb].
    assert (inside (Window r0 (r1 - r0) c0 (c1 - c0)) (ds_height ds) (ds_width ds) = true) as I.
    { unfold inside. cbn [w_row w_rows w_col w_cols]. lia. }
    rewrite I. cbn [negb w_rows w_cols].
    assert (has_shape v (r1 - r0) (c1 - c0) = true) as -> by now apply has_shape_grid.
    cbn [negb]. rewrite Et. cbn [bind]. eexists. split; [reflexivity|]. split; [reflexivity|].
    assert (grid (nth (band - 1) (ds_bands ds) []) (ds_height ds) (ds_width ds)) as Gb.
    { apply WB, nth_In. lia. }
    assert (grid (map (map (cast t)) v) (r1 - r0) (c1 - c0)) as Gv.
    { destruct G as [L R]. split; [now rewrite map_length|]. intros i H.
      rewrite (nth_map_lt _ _ _ []) by lia. rewrite map_length. now apply R. }
    destruct (patch_grid d _ _ _ _ _ Gb I Gv) as [GP NP].
    cbn [ds_bands ds_height ds_width ds_profile ds_dtypes ds_nodata ds_mode ds_closed w_row w_rows w_col w_cols] in *.
    split; [split; [|split]|]; cbn [ds_bands ds_height ds_width ds_dtypes ds_nodata].
    { intros b Ib. apply upd_In in Ib as [->|Ib]; [exact GP|now apply WB]. }
    { now rewrite upd_length'. }
    { now rewrite upd_length'. }
    do 2 (split; [reflexivity|]). split; [reflexivity|]. split; [apply upd_length'|].
    split; [reflexivity|]. do 3 (split; [reflexivity|]).
    unfold pixel. cbn [ds_bands]. split; [|split].
    - intros i j H1 H2. rewrite upd_nth_same by lia. rewrite NP.
      destruct (_ && _) eqn:B; [|lia]. destruct G as [L R].
      rewrite (nth_map_lt _ _ _ []) by lia. rewrite (nth_map_lt _ _ _ d); [reflexivity|]. rewrite R by lia. lia.
    - intros i j H. rewrite upd_nth_same by lia. rewrite NP.
      destruct (_ && _) eqn:B; [|reflexivity]. exfalso. apply H. lia.
    - intros b i j H1 H2. rewrite upd_nth_other by lia. reflexivity.
  Qed.

  Lemma getitem_full r : ra_getitem d from_slices r (RowsCols full_slice full_slice) = ra_array d r.
  Proof using FS.
    unfold ra_getitem. destruct (window_ok r (RowsCols full_slice full_slice) 0 (ds_height (ra_dataset r)) 0 (ds_width (ra_dataset r))) as (-> & _ & _).
    - split; apply selects_full.
    - cbn [bind]. unfold ra_array. now rewrite !Nat.sub_0_r.
  Qed.
End Access.
