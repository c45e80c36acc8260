(** C74, inputs and files: which exception is raised, and exactly when. *)
From Coq Require Import String.
From Verif Require Import Base TileModel JsonModel NamesModel RasterModel ThreeDModel SlcModel SettingsModel WorkflowModel Props_ErrorsMerge.
From Coq Require Import List Lia ZifyBool.
Import ListNotations.
Set Default Goal Selector "!".
Local Open Scope nat_scope.

(** * utils/_tiling.py *)

Theorem C74_bounds l e : from_shapely_bounds l = Err e <-> length l <> 4 /\ e = ValueError.
Proof.
  destruct l as [|a [|b [|c [|d [|x l]]]]]; cbn; split; try discriminate;
    try (intros [= <-]; split; [lia|reflexivity]); try (intros [_ ->]; reflexivity). intros [H _]. lia.
Qed.

(** Both sides must be empty for the shape to be rejected. *)
Theorem C74_regular sh n e : create_tiles_regular sh n = Err e <->
  ((fst sh <= 0 /\ snd sh <= 0 \/ n <= 0)%Z) /\ e = ValueError.
Proof.
  unfold create_tiles_regular. destruct ((fst sh <=? 0) && (snd sh <=? 0))%Z eqn:S.
  { split; [intros [= <-]; split; [lia|reflexivity]|intros [_ ->]; reflexivity]. }
  destruct (Z.leb_spec n 0) as [N|N].
  { split; [intros [= <-]; split; [lia|reflexivity]|intros [_ ->]; reflexivity]. }
  destruct (_ =? 1)%Z; (split; [discriminate|lia]).
Qed.
Theorem C74_splits z m bz e : get_splits z m bz = Err e <-> (m = 0 \/ length z < m) /\ e = ValueError.
Proof.
  unfold get_splits. destruct m as [|m].
  { cbn. split; [intros [= <-]; auto|intros [_ ->]; reflexivity]. }
  destruct (Nat.eqb_spec (length z / S m) 0) as [E|E].
  - apply Nat.div_small_iff in E; [|discriminate]. split; [intros [= <-]; auto|intros [_ ->]; reflexivity].
  - split; [discriminate|]. intros [[H|H] _]; [discriminate|]. exfalso. apply E. apply Nat.div_small. exact H.
Qed.
(** An image without pixels: the fraction of valid ones is logged. *)
Theorem C74_empty_image pick root s arr :
  length arr = 0 \/ length (nth 0 arr []) = 0 -> get_tiles pick root true s arr = Err ZeroDivisionError.
Proof.
  intros H. unfold get_tiles. cbn [negb fst snd].
  replace (_ * _ =? 0)%Z with true by nia. reflexivity.
Qed.
Example C74_tiles_witness :
  create_tiles_regular (0, 0)%Z 4 = Err ValueError /\ create_tiles_regular (2, 2)%Z 0 = Err ValueError /\
  (exists t, create_tiles_regular (0, 2)%Z 4 = Ok t) /\
  get_splits [1; 2]%Z 3 (0, 4)%Q = Err ValueError /\ (exists c, get_splits [1; 2]%Z 2 (0, 4)%Q = Ok c) /\
  (forall pick root s, get_tiles pick root true s [[]; []] = Err ZeroDivisionError).
Proof. repeat split; eexists; reflexivity. Qed.

(** * Files of tiles *)

(** A text that is not one JSON value. *)
Theorem C74_loads s e : loads s = Err e -> e = ValueError.
Proof. unfold loads. destruct (parse _ s) as [[v r]|]; [destruct (skip r)|]; congruence. Qed.
Theorem C74_key key v : (forall l, v <> JObj l) -> get_key key v = Err TypeError.
Proof. intros H. destruct v; try reflexivity. destruct (H l); reflexivity. Qed.
Theorem C74_ints v e : int_list v = Err e <-> (forall l, v <> JArr (map JInt l)) /\ e = TypeError.
Proof.
  assert (forall l, (exists zs, l = map JInt zs /\ ints_of l = Ok zs) \/ (forall zs, l <> map JInt zs) /\ ints_of l = Err TypeError) as I.
  { induction l as [|x l IH]; [left; exists []; split; reflexivity|]. destruct x as [z|l'|l'].
    - destruct IH as [(zs & -> & E)|(N & E)].
      + left. exists (z :: zs). cbn. rewrite E. split; reflexivity.
      + right. cbn. rewrite E. split; [|reflexivity]. intros [|z' zs] [=]. subst. eapply N; reflexivity.
    - right. split; [|reflexivity]. intros [|z' zs]; discriminate.
    - right. split; [|reflexivity]. intros [|z' zs]; discriminate. }
  destruct v as [z|l|l]; cbn [int_list].
  - split; [intros [= <-]; split; [discriminate|reflexivity]|intros [_ ->]; reflexivity].
  - destruct (I l) as [(zs & -> & ->)|(N & ->)].
    + split; [discriminate|]. intros [H _]. destruct (H zs); reflexivity.
    + split; [intros [= <-]; split; [intros zs [= ->]; eapply N; reflexivity|reflexivity]|intros [_ ->]; reflexivity].
  - split; [intros [= <-]; split; [discriminate|reflexivity]|intros [_ ->]; reflexivity].
Qed.
Example C74_json_witness : loads "[1, 2" = Err ValueError /\ loads "1 2" = Err ValueError /\ loads "" = Err ValueError /\
  get_key "shape" (JArr []) = Err TypeError /\ int_list (JArr [JInt 1; JArr []]) = Err TypeError /\ int_list (JInt 3) = Err TypeError /\
  from_json "[1]" = Err TypeError /\ from_json "{""shape"": [1, 2], ""tiles"": 4}" = Err TypeError /\
  from_json "{""shape"": [1], ""tiles"": []}" = Err TypeError.
Proof. repeat split. Qed.

(** * io/_raster.py *)

Section Raster.
  Context {V P T : Type} (d : P).
  Implicit Types (ds : dataset V P T) (w : window).
  Definition within w (h wd : nat) : Prop := w_row w + w_rows w <= h /\ w_col w + w_cols w <= wd.
  Lemma inside_ok w h wd : inside w h wd = true <-> within w h wd.
  Proof. unfold inside, within. lia. Qed.

  Theorem C74_read ds band w e : ds_read d ds band w = Err e <->
    (ds_closed ds = true \/ ~ within w (ds_height ds) (ds_width ds)) /\ e = RuntimeError.
  Proof.
    unfold ds_read. destruct (ds_closed ds).
    { split; [intros [= <-]; auto|intros [_ ->]; reflexivity]. }
    rewrite <- inside_ok. destruct (inside _ _ _); cbn [negb].
    - split; [discriminate|]. intros [[H|H] _]; congruence.
    - split; [intros [= <-]; split; [right; discriminate|reflexivity]|intros [_ ->]; reflexivity].
  Qed.

  (** Writing: a closed or read-only dataset, or a window beyond it, is a
      RuntimeError; values of another shape a ValueError; a band without a type an
      IndexError. *)
  Theorem C74_write cast ds v band w e : ds_write cast ds v band w = Err e <->
    let bad := ds_closed ds = true \/ (ds_mode ds <> "r+" /\ ds_mode ds <> "w+")%string \/ ~ within w (ds_height ds) (ds_width ds) in
    let shaped := length v = w_rows w /\ forall r, In r v -> length r = w_cols w in
    (bad /\ e = RuntimeError) \/ (~ bad /\ ~ shaped /\ e = ValueError) \/
    (~ bad /\ shaped /\ length (ds_dtypes ds) <= band - 1 /\ e = IndexError).
  Proof.
    unfold ds_write. intros. cbv zeta. rewrite <- inside_ok.
    assert (writable (ds_mode ds) = true <-> ~ (ds_mode ds <> "r+" /\ ds_mode ds <> "w+")%string) as W.
    { unfold writable. rewrite Bool.orb_true_iff, !String.eqb_eq. split; [tauto|].
      intros H. destruct (string_dec (ds_mode ds) "r+"); [auto|]. destruct (string_dec (ds_mode ds) "w+"); [auto|]. tauto. }
    assert (has_shape v (w_rows w) (w_cols w) = true <-> length v = w_rows w /\ forall r, In r v -> length r = w_cols w) as S.
    { unfold has_shape. rewrite Bool.andb_true_iff, forallb_forall, Nat.eqb_eq.
      split; intros [H K]; (split; [exact H|]); intros r Hr; apply K in Hr; apply Nat.eqb_eq; exact Hr. }
    destruct (ds_closed ds); cbn [orb].
    { split; [intros [= <-]; auto|]. intros [[_ ->]|[(H & _)|(H & _)]]; [reflexivity|tauto|tauto]. }
    destruct (writable _); cbn [negb].
    2:{ assert (ds_mode ds <> "r+" /\ ds_mode ds <> "w+")%string as N.
        { destruct W as [_ W]. split; intros E; assert (false = true) by (apply W; tauto); discriminate. }
        split; [intros [= <-]; auto|]. intros [[_ ->]|[(H & _)|(H & _)]]; [reflexivity|tauto|tauto]. }
    destruct W as [W _]. specialize (W eq_refl).
    destruct (inside _ _ _); cbn [negb].
    2:{ assert (false <> true) by discriminate.
        split; [intros [= <-]; tauto|]. intros [[_ ->]|[(H' & _)|(H' & _)]]; [reflexivity|tauto|tauto]. }
    assert (~ (false = true \/ (ds_mode ds <> "r+" /\ ds_mode ds <> "w+")%string \/ ~ true = true)) as NB.
    { intros [H|[H|H]]; [discriminate|tauto|tauto]. }
    destruct (has_shape _ _ _); cbn [negb].
    2:{ assert (~ (length v = w_rows w /\ forall r, In r v -> length r = w_cols w)) as NS by (rewrite <- S; discriminate).
        split; [intros [= <-]; auto|]. intros [[H _]|[(_ & _ & ->)|(_ & H & _)]]; [tauto|reflexivity|tauto]. }
    destruct S as [S _]. specialize (S eq_refl).
    destruct (nth_error _ _) eqn:E.
    - split; [discriminate|]. intros [[H _]|[(_ & H & _)|(_ & _ & H & _)]]; [tauto|tauto|]. apply nth_error_None in H. congruence.
    - apply nth_error_None in E. split; [intros [= <-]; tauto|]. intros [[H _]|[(_ & H & _)|(_ & _ & _ & ->)]]; [tauto|tauto|reflexivity].
  Qed.

  Theorem C74_dtype (r : raster_obj V P T) e :
    (ra_dtype r = Err e <-> length (ds_dtypes (ra_dataset r)) <= ra_band r - 1 /\ e = IndexError) /\
    (ra_nodata r = Err e <-> length (ds_nodata (ra_dataset r)) <= ra_band r - 1 /\ e = IndexError).
  Proof.
    unfold ra_dtype, ra_nodata. split.
    - rewrite <- nth_error_None. destruct (nth_error _ _); [split; [discriminate|intros [H _]; discriminate]|].
      split; [intros [= <-]; auto|intros [_ ->]; reflexivity].
    - rewrite <- nth_error_None. destruct (nth_error _ _); [split; [discriminate|intros [H _]; discriminate]|].
      split; [intros [= <-]; auto|intros [_ ->]; reflexivity].
  Qed.
End Raster.
Definition tiny (mode : string) (dt : list nat) : dataset nat nat nat := Dataset [] 1 2 [[[5; 6]]] dt [None] mode false.
Example C74_raster_witness : let w := Window 0 1 0 2 in let cast (_ v : nat) := v in
  ds_read 0 (tiny "r" [0]) 1 (Window 0 2 0 2) = Err RuntimeError /\
  ds_read 0 (ds_close (tiny "r" [0])) 1 w = Err RuntimeError /\
  ds_write cast (tiny "r" [0]) [[1; 2]] 1 w = Err RuntimeError /\
  ds_write cast (tiny "r+" [0]) [[1; 2; 3]] 1 w = Err ValueError /\
  ds_write cast (tiny "r+" []) [[1; 2]] 1 w = Err IndexError /\
  (exists r, ds_write cast (tiny "r+" [0]) [[1; 2]] 1 w = Ok r) /\
  ra_dtype (Raster (tiny "r" []) 1) = Err IndexError /\ ra_nodata (Raster (tiny "r" []) 2) = Err IndexError.
Proof. repeat split. eexists. reflexivity. Qed.

(** * io/_three_d.py *)

Theorem C74_nth l i e : py_nth l i = Err e <-> (i < - Z.of_nat (length l) \/ Z.of_nat (length l) <= i)%Z /\ e = IndexError.
Proof.
  unfold py_nth. destruct (Z.ltb_spec i 0) as [H|H]; destruct (_ || _)%bool eqn:E;
    (split; [first [discriminate|intros [= <-]; split; [lia|reflexivity]]|intros [? ->]; first [reflexivity|lia]]).
Qed.
Theorem C74_unravel key sh e : unravel_index key sh = Err e <-> (key < 0 \/ Z.of_nat (prod sh) <= key)%Z /\ e = ValueError.
Proof.
  unfold unravel_index. destruct (_ || _)%bool eqn:E; (split; [first [discriminate|intros [= <-]; split; [lia|reflexivity]]|intros [? ->]; first [reflexivity|lia]]).
Qed.
Theorem C74_getitem {A} (d : A) a ind e : getitem d a ind = Err e <-> length (nd_shape a) < length ind /\ e = IndexError.
Proof.
  unfold getitem. destruct (Nat.ltb_spec (length (nd_shape a)) (length ind)).
  - split; [intros [= <-]; auto|intros [_ ->]; reflexivity].
  - split; [discriminate|lia].
Qed.

(** The 2D input: shapes are ValueErrors, a time dimension below -1 an
    IndexError. *)
Theorem C74_irregular {A B} (data : ndarray A) (xy : ndarray B) td e : irreg3d_init data xy td = Err e <->
  let sh := nd_shape data in
  let bad := length sh <> 2 \/ length (nd_shape xy) <> 2 \/ (2 <= td)%Z in
  let n := if (td =? 1)%Z then nth 0 sh 0 else if (td =? 0)%Z then nth 1 sh 0 else 0 in
  (bad /\ e = ValueError) \/ (~ bad /\ (td < 0)%Z /\ e = IndexError) \/
  (~ bad /\ (0 <= td)%Z /\ nth 0 (nd_shape xy) 0 <> n /\ e = ValueError).
Proof.
  cbv zeta. unfold irreg3d_init, nd_ndim.
  destruct (Z.eqb_spec (Z.of_nat (length (nd_shape data))) 2) as [L1|L1]; cbn [negb].
  2:{ split; [intros [= <-]; left; split; [lia|reflexivity]|]. intros [[_ ->]|[(H & _)|(H & _)]]; [reflexivity|lia|lia]. }
  destruct (Z.eqb_spec (Z.of_nat (length (nd_shape xy))) 2) as [L2|L2]; cbn [negb].
  2:{ split; [intros [= <-]; left; split; [lia|reflexivity]|]. intros [[_ ->]|[(H & _)|(H & _)]]; [reflexivity|lia|lia]. }
  rewrite L1. destruct (Z.leb_spec 2 td) as [L3|L3].
  { split; [intros [= <-]; left; split; [lia|reflexivity]|]. intros [[_ ->]|[(H & _)|(H & _)]]; [reflexivity|lia|lia]. }
  destruct (nd_shape data) as [|d0 [|d1 [|? ?]]]; cbn [length] in L1; try lia. clear L1.
  destruct (Z.ltb_spec td 0) as [N|N].
  - replace (py_nth [d0; d1] (1 - td)) with (@Err nat IndexError).
    2:{ symmetry. apply C74_nth. cbn [length]. split; [lia|reflexivity]. }
    cbn [bind]. split; [intros [= <-]; right; left; cbn [length]; split; [lia|split; [lia|reflexivity]]|].
    cbn [length]. intros [(H & _)|[(_ & _ & ->)|(_ & H & _)]]; [lia|reflexivity|lia].
  - assert (py_nth [d0; d1] (1 - td) = Ok (if (td =? 1)%Z then d0 else if (td =? 0)%Z then d1 else 0)) as ->.
    { assert (td = 0 \/ td = 1)%Z as [-> | ->] by lia; reflexivity. }
    cbn [bind nth length]. destruct (Nat.eqb_spec (nth 0 (nd_shape xy) 0) (if (td =? 1)%Z then d0 else if (td =? 0)%Z then d1 else 0)) as [E|E]; cbn [negb].
    + split; [discriminate|]. intros [(H & _)|[(_ & H & _)|(_ & _ & H & _)]]; [lia|lia|tauto].
    + split; [intros [= <-]; right; right; split; [lia|]; split; [lia|]; split; [exact E|reflexivity]|].
      intros [(H & _)|[(_ & H & _)|(_ & _ & _ & ->)]]; [lia|lia|reflexivity].
Qed.
Example C74_irregular_witness : let data := NdArray [2; 3] [1; 2; 3; 4; 5; 6] in let xy := NdArray [3; 2] [0; 0; 0; 1; 0; 2] in
  irreg3d_init data (NdArray [6] [0; 0; 0; 1; 0; 2]) 0 = Err ValueError /\ irreg3d_init data xy 2 = Err ValueError /\
  irreg3d_init data xy (-1) = Err IndexError /\ irreg3d_init data xy 1 = Err ValueError /\
  (exists r, irreg3d_init data xy 0 = Ok r) /\
  py_nth [4; 5] 2 = Err IndexError /\ py_nth [4; 5] (-3) = Err IndexError /\ py_nth [4; 5] (-2) = Ok 4 /\
  unravel_index 6 [2; 3] = Err ValueError /\ getitem 0 data [SAll; SAll; SAll] = Err IndexError.
Proof. repeat split. eexists. reflexivity. Qed.

(** * io/_slc_stack.py *)

Lemma dict_has_ok k d : dict_has k d = true <-> In k (map fst d).
Proof.
  unfold dict_has. rewrite existsb_exists. split.
  - intros (x & H & E). apply String.eqb_eq in E. subst. exact H.
  - intros H. exists k. rewrite String.eqb_refl. auto.
Qed.
(** The date of an SLC file: the first eight characters of its first field. *)
Definition date_of (slc : string) : string := first8 (hd "" (py_split slc))%string.

(** A folder of SLCs: no dispersion file, or two files of one date. *)
Theorem C74_slc_folder folder listing e : from_slc_directory folder listing = Err e <->
  e = ValueError /\ (~ In "inv_amp_dispersion.tif"%string listing \/
    ~ NoDup (map date_of (sort_str (filter (ends_with ".slc.tif") listing)))).
Proof.
  assert (forall l d, NoDup (map fst d) ->
            (NoDup (map fst d ++ map date_of l) -> exists r, scan_slc folder l d = Ok r) /\
            (~ NoDup (map fst d ++ map date_of l) -> scan_slc folder l d = Err ValueError)) as S.
  { induction l as [|slc l IH]; intros d Nd; cbn [scan_slc map].
    { rewrite app_nil_r. split; [intros _; eexists; reflexivity|tauto]. }
    fold (date_of slc). destruct (dict_has (date_of slc) d) eqn:D.
    - apply dict_has_ok in D. split; [|reflexivity]. intros H. exfalso.
      apply NoDup_remove_2 in H. apply H. apply in_or_app. left. exact D.
    - assert (~ In (date_of slc) (map fst d)) as N by (rewrite <- dict_has_ok; congruence).
      specialize (IH (d ++ [(date_of slc, Some (path_join folder slc))])).
      rewrite map_app in IH. cbn [map fst] in IH. rewrite <- app_assoc in IH. cbn [app] in IH. apply IH.
      apply NoDup_rev in Nd. rewrite <- (rev_involutive (map fst d ++ [date_of slc])). apply NoDup_rev.
      rewrite rev_app_distr. cbn. constructor; [rewrite <- in_rev; exact N|exact Nd]. }
  unfold from_slc_directory. destruct (existsb _ listing) eqn:X; cbn [negb].
  - assert (In "inv_amp_dispersion.tif"%string listing) as I.
    { apply existsb_exists in X. destruct X as (x & Hx & Ex). apply String.eqb_eq in Ex. subst. exact Hx. }
    destruct (S (sort_str (filter (ends_with ".slc.tif") listing)) [] (NoDup_nil _)) as [S1 S2]. cbn [map app] in S1, S2.
    destruct (ListDec.NoDup_dec string_dec (map date_of (sort_str (filter (ends_with ".slc.tif") listing)))) as [N|N].
    + destruct (S1 N) as (r & ->). split; [discriminate|tauto].
    + rewrite (S2 N). split; [intros [= <-]; auto|intros [-> _]; reflexivity].
  - assert (~ In "inv_amp_dispersion.tif"%string listing) as I.
    { intros H. apply existsb_no with (x := "inv_amp_dispersion.tif"%string) in X; [discriminate|exact H]. }
    split; [intros [= <-]; auto|intros [-> _]; reflexivity].
Qed.
Example C74_slc_folder_witness :
  from_slc_directory "in" ["20200101.slc.tif"]%string = Err ValueError /\
  from_slc_directory "in" ["inv_amp_dispersion.tif"; "20200101.slc.tif"; "20200101_a.slc.tif"]%string = Err ValueError /\
  exists r, from_slc_directory "in" ["inv_amp_dispersion.tif"; "20200101.slc.tif"; "20200113.slc.tif"]%string = Ok r.
Proof. repeat split. eexists. reflexivity. Qed.

(** The pixels of a mask of another shape. *)
Theorem C74_select {A} (img : list (list A)) msk e : select img msk = Err e <->
  ~ (map (@length A) img = map (@length bool) msk) /\ e = IndexError.
Proof.
  assert (same_shape img msk = true <-> map (@length A) img = map (@length bool) msk) as S.
  { unfold same_shape. revert msk. induction img as [|r img IH]; intros [|m msk]; cbn [length map combine forallb Nat.eqb andb fst snd];
      try (split; (discriminate || reflexivity)).
    specialize (IH msk). rewrite Bool.andb_true_iff in *. rewrite Bool.andb_true_iff. split.
    - intros (L & E & F). f_equal; [apply Nat.eqb_eq; exact E|]. apply IH. auto.
    - intros [= E F]. apply IH in F. apply Nat.eqb_eq in E. tauto. }
  unfold select. destruct (same_shape img msk).
  - split; [discriminate|]. intros [H _]. destruct S as [S _]. specialize (S eq_refl). tauto.
  - split; [intros [= <-]; split; [rewrite <- S; discriminate|reflexivity]|intros [_ ->]; reflexivity].
Qed.
Example C74_select_witness : select [[1; 2]] [[true]; [false]] = Err IndexError /\ select [[1; 2]; [3; 4]] [[true; false]; [true; true]] = Ok [1; 3; 4].
Proof. repeat split. Qed.
(** One date: unknown, without its file, or an image of another shape. *)
Theorem C74_read_date {C} (one : C) s b msk n date e : read_date one s b msk n date = Err e <->
  (dict_get date (st_files s) = None /\ e = KeyError) \/
  (exists f, dict_get date (st_files s) = Some (Some f) /\
     (st_slc s f = None /\ e = FileNotFoundError \/
      exists img, st_slc s f = Some img /\ select (read_window img b) msk = Err IndexError /\ e = IndexError)).
Proof.
  unfold read_date. destruct (dict_get date (st_files s)) as [[f|]|] eqn:D.
  - destruct (st_slc s f) as [img|] eqn:I.
    + destruct (select (read_window img b) msk) as [r|x] eqn:S.
      * split; [discriminate|]. intros [[H _]|(f' & [= <-] & [[H _]|(img' & H & K & _)])]; congruence.
      * assert (x = IndexError) as -> by (apply C74_select in S; tauto).
        split; [intros [= <-]; right; exists f; split; [reflexivity|]; right; exists img; auto|].
        intros [[H _]|(f' & [= <-] & [[H _]|(img' & H & K & ->)])]; congruence.
    + split; [intros [= <-]; right; exists f; auto|].
      intros [[H _]|(f' & [= <-] & [[H ->]|(img' & H & K & _)])]; congruence.
  - split; [discriminate|]. intros [[H _]|(f' & H & _)]; discriminate.
  - split; [intros [= <-]; auto|]. intros [[_ ->]|(f' & H & _)]; [reflexivity|discriminate].
Qed.
Example C74_read_date_witness :
  let s := SlcStack [("d1", None); ("d2", Some "a"); ("d3", Some "b")]%string [] 0%Q
             (fun f => if String.eqb f "a"%string then Some [[1; 2]] else None) in
  let read m d := read_date 9 s (BBox 0 0 1 2) m 2 d in
  read [[true; true]] "d4"%string = Err KeyError /\ read [[true; true]] "d3"%string = Err FileNotFoundError /\
  read [[true]] "d2"%string = Err IndexError /\ read [[false; true]] "d2"%string = Ok [2] /\ read [[true; true]] "d1"%string = Ok [9; 9].
Proof. repeat split. Qed.

(** * emcf/_settings.py *)

(** Making a folder: its parent is missing, or something is not a folder. *)
Theorem C74_mkdir t name parent e : mkdir t (name :: parent) = Err e <->
  (is_dir t parent = false /\ t parent = None /\ e = FileNotFoundError) \/
  (is_dir t parent = false /\ t parent <> None /\ e = RuntimeError) \/
  (is_dir t parent = true /\ t (name :: parent) = Some File /\ e = RuntimeError).
Proof.
  cbn [mkdir]. destruct (is_dir t parent).
  - destruct (t (name :: parent)) as [[|]|].
    + split; [discriminate|]. intros [(H & _)|[(H & _)|(_ & H & _)]]; discriminate.
    + split; [intros [= <-]; auto|]. intros [(H & _)|[(H & _)|(_ & _ & ->)]]; [discriminate|discriminate|reflexivity].
    + split; [discriminate|]. intros [(H & _)|[(H & _)|(_ & H & _)]]; discriminate.
  - destruct (t parent).
    + split; [intros [= <-]; right; left; repeat split; discriminate|]. intros [(_ & H & _)|[(_ & _ & ->)|(H & _)]]; [discriminate|reflexivity|discriminate].
    + split; [intros [= <-]; auto|]. intros [(_ & _ & ->)|[(_ & H & _)|(H & _)]]; [reflexivity|tauto|discriminate].
Qed.
Example C74_mkdir_witness :
  let t : tree := fun p => if path_eqb p ["a"%string] then Some File else if path_eqb p ["b"%string] then Some Dir else None in
  mkdir t ["x"; "c"]%string = Err FileNotFoundError /\ mkdir t ["x"; "a"]%string = Err RuntimeError /\
  mkdir t ["a"]%string = Err RuntimeError /\ exists t', mkdir t ["x"; "b"]%string = Ok t'.
Proof. repeat split. eexists. reflexivity. Qed.

(** * The names of the merged files *)

(** Only an interferogram with a date that is not there raises. *)
Theorem C74_output_names v e : output_files v = Err e <->
  e = IndexError /\ exists i j, In (i, j) (e_ifgs v) /\ (length (e_dates v) <= i \/ length (e_dates v) <= j).
Proof.
  unfold output_files. set (f := fun ij : nat * nat => _).
  assert (forall i j x, f (i, j) = Err x <-> (length (e_dates v) <= i \/ length (e_dates v) <= j) /\ x = IndexError) as F.
  { intros i j x. unfold f. cbn [fst snd].
    destruct (nth_error (e_dates v) i) as [d1|] eqn:E1; [destruct (nth_error (e_dates v) j) as [d2|] eqn:E2|].
    - assert (i < length (e_dates v)) by (apply nth_error_Some; congruence).
      assert (j < length (e_dates v)) by (apply nth_error_Some; congruence). split; [discriminate|lia].
    - apply nth_error_None in E2. split; [intros [= <-]; auto|intros [_ ->]; reflexivity].
    - apply nth_error_None in E1. split; [intros [= <-]; auto|intros [_ ->]; reflexivity]. }
  clearbody f. split.
  - intros H. apply map_res_err in H. destruct H as ([i j] & Hij & H). apply F in H. destruct H as [H ->]. split; [reflexivity|]. exists i, j. auto.
  - intros (-> & i & j & Hij & H). destruct (map_res_fails f (e_ifgs v) (i, j) IndexError Hij) as (e' & E); [apply F; auto|].
    rewrite E. f_equal. apply map_res_err in E. destruct E as ([c d] & _ & E). apply F in E. tauto.
Qed.
Example C74_output_names_witness v : e_dates v = ["20200101"; "20200113"]%string -> e_ifgs v = [(0, 1); (1, 2)] -> output_files v = Err IndexError.
Proof. intros D I. apply C74_output_names. split; [reflexivity|]. exists 1, 2. rewrite D, I. cbn. auto. Qed.

Print Assumptions C74_bounds.
Print Assumptions C74_regular.
Print Assumptions C74_splits.
Print Assumptions C74_empty_image.
Print Assumptions C74_loads.
Print Assumptions C74_key.
Print Assumptions C74_ints.
Print Assumptions C74_read.
Print Assumptions C74_write.
Print Assumptions C74_dtype.
Print Assumptions C74_nth.
Print Assumptions C74_unravel.
Print Assumptions C74_getitem.
Print Assumptions C74_irregular.
Print Assumptions C74_slc_folder.
Print Assumptions C74_select.
Print Assumptions C74_read_date.
Print Assumptions C74_mkdir.
Print Assumptions C74_output_names.
