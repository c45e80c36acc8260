(** C63, C64: rasters (io/_raster.py). *)
From Coq Require Import Lia ZifyBool.
From Verif Require Import Base RasterModel RasterSpec RasterProofs.
Set Default Goal Selector "!".
Local Open Scope string_scope.
Local Open Scope nat_scope.

(** * C63: reading and writing windows *)

(** A two-band dataset of 2 x 3 pixels. *)
Definition demo_ds (m : string) : dataset meta nat string :=
  Dataset [("height", MNat 2); ("width", MNat 3); ("count", MNat 2); ("dtype", MStr "uint8"); ("crs", MOther 7);
           ("driver", MStr "VRT"); ("nodata", MOther 255); ("interleave", MStr "band")]
    2 3 [[[1; 2; 3]; [4; 5; 6]]; [[10; 20; 30]; [40; 50; 60]]] ["uint8"; "uint8"] [None; Some 255] m false.

(** A slice function meeting the contract: rasterio's, without negative bounds. *)
Definition demo_slices (rs cs : pslice) (h w : nat) : res window :=
  let lo s := match sl_start s with None => 0 | Some z => Z.to_nat z end in
  let hi s n := match sl_stop s with None => n | Some z => Z.to_nat z end in
  Ok (Window (lo rs) (hi rs h - lo rs) (lo cs) (hi cs w - lo cs)).

Lemma demo_slices_contract : slices_contract demo_slices.
Proof.
  intros rs cs h w r0 r1 c0 c1 (A & B & C) (D & E & F). unfold demo_slices.
  destruct rs as [[a|] [b|]], cs as [[a'|] [b'|]]; cbn in *; subst; rewrite ?Nat2Z.id; reflexivity.
Qed.

Lemma demo_well_formed m : well_formed (demo_ds m).
Proof.
  split; [|split; reflexivity]. intros b [<-|[<-|[]]]; (split; [reflexivity|]); intros [|[|i]] H; cbn in *; lia.
Qed.

(** Indexing gives exactly the selected rows and columns of the raster's own band;
    a lone slice selects rows. *)
Theorem C63_getitem {V P T} (d : P) from_slices (r : raster_obj V P T) k r0 r1 c0 c1 :
  slices_contract from_slices -> ds_closed (ra_dataset r) = false ->
  key_selects k (ds_height (ra_dataset r)) (ds_width (ra_dataset r)) r0 r1 c0 c1 ->
  exists out, ra_getitem d from_slices r k = Ok out /\ grid out (r1 - r0) (c1 - c0) /\
    forall i j, i < r1 - r0 -> j < c1 - c0 ->
      nth j (nth i out []) d = pixel d (ra_dataset r) (ra_band r) (r0 + i) (c0 + j).
Proof. intros FS. now apply getitem_ok. Qed.

Example C63_getitem_witness :
  ra_getitem 0 demo_slices (Raster (demo_ds "r") 2) (RowsCols (Slice (Some 1%Z) None) (Slice None (Some 2%Z))) = Ok [[40; 50]] /\
  ra_getitem 0 demo_slices (Raster (demo_ds "r") 2) (Rows (Slice None (Some 1%Z))) = Ok [[10; 20; 30]] /\
  key_selects (RowsCols (Slice (Some 1%Z) None) (Slice None (Some 2%Z))) 2 3 1 2 0 2 /\
  key_selects (Rows (Slice None (Some 1%Z))) 2 3 0 1 0 3 /\ slices_contract demo_slices.
Proof. repeat split; try reflexivity; try (cbn; lia). apply demo_slices_contract. Qed.

(** Assignment writes the selected pixels of the raster's band, converted to its
    type, and changes nothing else: no other pixel, no other band, no metadata. *)
Theorem C63_setitem {V P T} (d : P) from_slices (cast : T -> P -> P) (r : raster_obj V P T) k r0 r1 c0 c1 v :
  slices_contract from_slices -> well_formed (ra_dataset r) -> 1 <= ra_band r <= ds_count (ra_dataset r) ->
  ds_closed (ra_dataset r) = false -> ds_mode (ra_dataset r) = "r+" \/ ds_mode (ra_dataset r) = "w+" ->
  key_selects k (ds_height (ra_dataset r)) (ds_width (ra_dataset r)) r0 r1 c0 c1 ->
  grid v (r1 - r0) (c1 - c0) ->
  exists t ds, nth_error (ds_dtypes (ra_dataset r)) (ra_band r - 1) = Some t /\
    ra_setitem from_slices cast r k v = Ok (Raster ds (ra_band r)) /\ well_formed ds /\
    ds_height ds = ds_height (ra_dataset r) /\ ds_width ds = ds_width (ra_dataset r) /\
    ds_profile ds = ds_profile (ra_dataset r) /\ ds_count ds = ds_count (ra_dataset r) /\
    ds_closed ds = false /\ ds_mode ds = ds_mode (ra_dataset r) /\ ds_dtypes ds = ds_dtypes (ra_dataset r) /\
    ds_nodata ds = ds_nodata (ra_dataset r) /\
    (forall i j, r0 <= i < r1 -> c0 <= j < c1 -> pixel d ds (ra_band r) i j = cast t (nth (j - c0) (nth (i - r0) v []) d)) /\
    (forall i j, ~ (r0 <= i < r1 /\ c0 <= j < c1) -> pixel d ds (ra_band r) i j = pixel d (ra_dataset r) (ra_band r) i j) /\
    (forall b i j, 1 <= b -> b <> ra_band r -> pixel d ds b i j = pixel d (ra_dataset r) b i j).
Proof. intros FS. now apply setitem_ok. Qed.

Example C63_setitem_witness :
  exists r, ra_setitem demo_slices (fun _ p => p mod 256) (Raster (demo_ds "r+") 2)
              (RowsCols full_slice (Slice (Some 1%Z) None)) [[300; 7]; [8; 9]] = Ok r /\
    ds_bands (ra_dataset r) = [[[1; 2; 3]; [4; 5; 6]]; [[10; 44; 7]; [40; 8; 9]]].
Proof. eexists. split; reflexivity. Qed.

(** What was written to a window is read back from it. *)
Theorem C63_read_back {V P T} (d : P) from_slices (cast : T -> P -> P) (r : raster_obj V P T) k r0 r1 c0 c1 v t :
  slices_contract from_slices -> well_formed (ra_dataset r) -> 1 <= ra_band r <= ds_count (ra_dataset r) ->
  ds_closed (ra_dataset r) = false -> ds_mode (ra_dataset r) = "r+" \/ ds_mode (ra_dataset r) = "w+" ->
  key_selects k (ds_height (ra_dataset r)) (ds_width (ra_dataset r)) r0 r1 c0 c1 ->
  grid v (r1 - r0) (c1 - c0) -> nth_error (ds_dtypes (ra_dataset r)) (ra_band r - 1) = Some t ->
  (do r' <- ra_setitem from_slices cast r k v; ra_getitem d from_slices r' k) = Ok (map (map (cast t)) v).
Proof.
  intros FS WF B O M K G Et. pose proof (window_ok _ FS _ _ _ _ _ _ K) as (_ & B1 & B2).
  destruct (setitem_ok d _ FS cast r k r0 r1 c0 c1 v WF B O M K G)
    as (t' & ds & Et' & -> & WF' & H & W & _ & _ & C & _ & _ & _ & P1 & _).
  cbn [bind]. assert (t' = t) as -> by congruence.
  destruct (getitem_ok d _ FS (Raster ds (ra_band r)) k r0 r1 c0 c1) as (out & -> & Go & Po).
  { exact C. } { cbn [ra_dataset]. now rewrite H, W. }
  f_equal. apply (grid_ext d _ _ (r1 - r0) (c1 - c0)); [exact Go| |].
  - destruct G as [L R]. split; [now rewrite map_length|]. intros i Hi.
    rewrite (nth_map_lt _ _ _ []) by lia. rewrite map_length. now apply R.
  - intros i j Hi Hj. rewrite Po by assumption. cbn [ra_dataset ra_band]. rewrite P1 by lia. destruct G as [L R].
    rewrite (nth_map_lt _ _ _ []) by lia. rewrite (nth_map_lt _ _ _ d) by (rewrite R by lia; lia).
    repeat f_equal; lia.
Qed.

(** [np.asarray(raster)] is [raster[:, :]]. *)
Theorem C63_array {V P T} (d : P) from_slices (r : raster_obj V P T) :
  slices_contract from_slices -> ra_getitem d from_slices r (RowsCols full_slice full_slice) = ra_array d r.
Proof. intros FS. now apply getitem_full. Qed.

Example C63_array_witness : ra_array 0 (Raster (demo_ds "r") 1) = Ok [[1; 2; 3]; [4; 5; 6]].
Proof. reflexivity. Qed.

(** Nothing is read from a closed raster, nothing written to one that is closed or
    was opened for reading, and a value of another shape than the selection is
    rejected: no broadcasting. *)
Theorem C63_rejects {V P T} (d : P) from_slices (cast : T -> P -> P) (r : raster_obj V P T) k v :
  (ds_closed (ra_dataset r) = true -> (exists e, ra_getitem d from_slices r k = Err e) /\ (exists e, ra_setitem from_slices cast r k v = Err e)) /\
  (ds_mode (ra_dataset r) = "r" -> exists e, ra_setitem from_slices cast r k v = Err e) /\
  (forall r0 r1 c0 c1, slices_contract from_slices ->
    key_selects k (ds_height (ra_dataset r)) (ds_width (ra_dataset r)) r0 r1 c0 c1 ->
    ~ grid v (r1 - r0) (c1 - c0) -> exists e, ra_setitem from_slices cast r k v = Err e).
Proof.
  unfold ra_getitem, ra_setitem. split; [|split].
  - intros C. destruct (window_from_slices from_slices r k); cbn [bind]; [|eauto]. unfold ds_read, ds_write. rewrite C. cbn. eauto.
  - intros M. destruct (window_from_slices from_slices r k); cbn [bind]; [|eauto]. unfold ds_write. rewrite M.
    cbn [writable String.eqb Ascii.eqb Bool.eqb orb negb]. rewrite Bool.orb_true_r. cbn [bind]. eauto.
  - intros r0 r1 c0 c1 FS K N. destruct (window_ok _ FS _ _ _ _ _ _ K) as (-> & _ & _). cbn [bind].
    unfold ds_write. destruct (ds_closed _ || _); cbn [bind]; [eauto|].
    destruct (negb (inside _ _ _)); cbn [bind]; [eauto|]. cbn [w_rows w_cols].
    destruct (has_shape v (r1 - r0) (c1 - c0)) eqn:S; [|cbn; eauto]. apply has_shape_grid in S. contradiction.
Qed.

Example C63_rejects_witness :
  ra_setitem demo_slices (fun _ p => p) (Raster (demo_ds "r") 1) (Rows full_slice) [[0; 0; 0]; [0; 0; 0]] = Err RuntimeError /\
  ra_setitem demo_slices (fun _ p => p) (Raster (demo_ds "r+") 1) (Rows full_slice) [[0; 0; 0]] = Err ValueError.
Proof. split; reflexivity. Qed.

(** * C64: opening, creating and closing *)

(** Opening succeeds exactly in modes r and r+, when the file opens and the band
    exists; the raster is that band of that dataset. *)
Theorem C64_open {V P T} (ropen : string -> string -> option string -> res (dataset V P T)) fp mode band driver r :
  fst (raster_init ropen fp mode band driver) = Ok r <->
  (mode = "r" \/ mode = "r+") /\ ropen fp mode driver = Ok (ra_dataset r) /\
  (1 <= band <= Z.of_nat (ds_count (ra_dataset r)))%Z /\ Z.of_nat (ra_band r) = band.
Proof.
  unfold raster_init.
  destruct (String.eqb_spec mode "w") as [->|N1]; cbn [orb].
  { split; [discriminate|]. intros ([E|E] & _); discriminate E. }
  destruct (String.eqb_spec mode "w+") as [->|N2]; cbn [orb].
  { split; [discriminate|]. intros ([E|E] & _); discriminate E. }
  destruct (negb (String.eqb mode "r" || String.eqb mode "r+")) eqn:M.
  { split; [discriminate|]. intros ([->| ->] & _); discriminate M. }
  apply Bool.negb_false_iff, Bool.orb_true_iff in M. rewrite !String.eqb_eq in M.
  destruct (ropen fp mode driver) as [ds|e] eqn:E.
  2:{ split; [discriminate|]. intros (_ & X & _). discriminate X. }
  destruct ((1 <=? band)%Z && (band <=? Z.of_nat (ds_count ds))%Z) eqn:B; cbn [negb fst].
  - split.
    + intros X. injection X as <-. cbn [ra_dataset ra_band]. repeat split; try assumption; lia.
    + intros (_ & X & _ & Y). injection X as ->. rewrite <- Y, Nat2Z.id. now destruct r.
  - split; [discriminate|]. intros (_ & X & Y & _). injection X as ->. lia.
Qed.

Example C64_open_witness :
  fst (raster_init (fun _ m _ => Ok (demo_ds m)) "f" "r" 2 None) = Ok (Raster (demo_ds "r") 2) /\
  fst (raster_init (fun _ m _ => Ok (demo_ds m)) "f" "w" 1 None) = Err ValueError /\
  fst (raster_init (fun _ m _ => Ok (demo_ds m)) "f" "r" 0 None) = Err IndexError /\
  fst (raster_init (fun _ m _ => Ok (demo_ds m)) "f" "r" 3 None) = Err IndexError.
Proof. repeat split; reflexivity. Qed.

(** Errors: a mode other than r and r+ is a ValueError before anything is opened;
    a missing band is an IndexError. *)
Theorem C64_open_errors {V P T} (ropen : string -> string -> option string -> res (dataset V P T)) fp mode band driver :
  (mode <> "r" -> mode <> "r+" -> raster_init ropen fp mode band driver = (Err ValueError, None)) /\
  (forall ds, (mode = "r" \/ mode = "r+") -> ropen fp mode driver = Ok ds -> (band < 1 \/ Z.of_nat (ds_count ds) < band)%Z ->
    fst (raster_init ropen fp mode band driver) = Err IndexError).
Proof.
  unfold raster_init. split.
  - intros N1 N2. destruct (String.eqb mode "w" || String.eqb mode "w+"); [reflexivity|].
    apply String.eqb_neq in N1, N2. rewrite N1, N2. reflexivity.
  - intros ds M E B.
    assert (String.eqb mode "w" || String.eqb mode "w+" = false) as -> by (destruct M as [-> | ->]; reflexivity).
    assert (String.eqb mode "r" || String.eqb mode "r+" = true) as -> by (destruct M as [-> | ->]; reflexivity).
    cbn [negb]. rewrite E. destruct (_ && _)%Z eqn:X; [lia|reflexivity].
Qed.

(** A dataset opened for a band it does not have stays open: nothing closes it and
    no raster refers to it. *)
Theorem C64_open_closes_on_error_refuted :
  ~ (forall (ropen : string -> string -> option string -> res (dataset meta nat string)) fp mode band driver e ds,
      raster_init ropen fp mode band driver = (Err e, Some ds) -> ds_closed ds = true).
Proof.
  intros H. specialize (H (fun _ m _ => Ok (demo_ds m)) "f" "r" 3%Z None IndexError (demo_ds "r") eq_refl).
  discriminate H.
Qed.

(** Metadata of a new raster: an argument that is not None, else the keyword
    option, else the profile of [like], and one band. *)
Theorem C64_create {V P T} (rcreate : string -> dict V -> res (dataset V P T)) one fp a :
  NoDup (map fst (ca_kwargs a)) ->
  exists prof, raster_create rcreate one fp a = (do ds <- rcreate fp prof; Ok (Raster ds 1)) /\
    dget "count" prof = Some one /\
    forall k, k <> "count" ->
      dget k prof =
        match (if String.eqb k "width" then ca_width a else if String.eqb k "height" then ca_height a
               else if String.eqb k "dtype" then ca_dtype a else if String.eqb k "driver" then ca_driver a
               else if String.eqb k "crs" then ca_crs a else if String.eqb k "transform" then ca_transform a
               else if String.eqb k "nodata" then ca_nodata a else None) with
        | Some v => Some v
        | None => match dget k (ca_kwargs a) with
                  | Some v => Some v
                  | None => match ca_like a with Some l => dget k (ds_profile (ra_dataset l)) | None => None end
                  end
        end.
Proof.
  intros Nd. exists (create_profile one a). split; [reflexivity|]. unfold create_profile. split.
  - rewrite dget_dset. reflexivity.
  - intros k N. rewrite dget_dset. destruct (String.eqb_spec "count" k) as [E|_]; [congruence|].
    rewrite !dget_dset_opt.
    set (base := match ca_like a with None => ca_kwargs a | Some l => dmerge (ds_profile (ra_dataset l)) (ca_kwargs a) end).
    assert (dget k base = match dget k (ca_kwargs a) with Some v => Some v | None =>
              match ca_like a with Some l => dget k (ds_profile (ra_dataset l)) | None => None end end) as <-.
    { unfold base. destruct (ca_like a); [now apply dget_dmerge|]. now destruct (dget k (ca_kwargs a)). }
    rewrite !(String.eqb_sym _ k).
    destruct (String.eqb_spec k "width") as [->|]; [reflexivity|]. destruct (String.eqb_spec k "height") as [->|]; [reflexivity|].
    destruct (String.eqb_spec k "dtype") as [->|]; [reflexivity|]. destruct (String.eqb_spec k "driver") as [->|]; [reflexivity|].
    destruct (String.eqb_spec k "crs") as [->|]; [reflexivity|]. destruct (String.eqb_spec k "transform") as [->|]; [reflexivity|].
    destruct (String.eqb_spec k "nodata") as [->|]; reflexivity.
Qed.

Example C64_create_witness :
  let a := @CreateArgs meta nat string None (Some (MNat 9)) None (Some (MStr "GTiff")) None None None
             (Some (Raster (demo_ds "r") 2)) [("nodata", MNaN)] in
  NoDup (map fst (ca_kwargs a)) /\
  map (fun k => dget k (create_profile (MNat 1) a)) ["width"; "height"; "driver"; "crs"; "nodata"; "count"; "interleave"; "transform"]
  = [Some (MNat 3); Some (MNat 9); Some (MStr "GTiff"); Some (MOther 7); Some MNaN; Some (MNat 1); Some (MStr "band"); None].
Proof. split; [|reflexivity]. repeat constructor; cbn; tauto. Qed.

(** Every raster written by the workflow has one float32 band of the given shape,
    NaN as its nodata value, format GTiff, and the georeferencing of [like]; it holds
    exactly the given array and is closed. *)
Theorem C64_output {P T} (d : P) rcreate from_slices (cast : T -> P -> P) (tname : T -> string) fp h w
    (like : option (raster_obj meta P T)) arr :
  create_contract rcreate tname -> slices_contract from_slices -> grid arr h w ->
  exists r t, write_output rcreate from_slices cast fp (h, w) like arr = Ok r /\
    ra_shape r = (h, w) /\ ds_count (ra_dataset r) = 1 /\ ra_band r = 1 /\ ra_dtype r = Ok t /\ tname t = "float32" /\
    ds_bands (ra_dataset r) = [map (map (cast t)) arr] /\ ds_closed (ra_dataset r) = true /\
    (forall k v, In (k, v) [("width", MNat w); ("height", MNat h); ("count", MNat 1); ("dtype", MStr "float32");
                            ("driver", MStr "GTiff"); ("nodata", MNaN)] -> dget k (ds_profile (ra_dataset r)) = Some v) /\
    (forall l k v, like = Some l -> k = "crs" \/ k = "transform" -> dget k (ds_profile (ra_dataset l)) = Some v ->
      dget k (ds_profile (ra_dataset r)) = Some v).
Proof.
  intros CC FS G.
  assert (NoDup (map fst (ca_kwargs (@output_args P T (h, w) like)))) as Nd.
  { cbn [output_args ca_kwargs map fst]. repeat constructor; cbn; intuition discriminate. }
  destruct (C64_create rcreate (MNat 1) fp _ Nd) as (prof & E & Pc & Pk).
  assert (dget "width" prof = Some (MNat w)) as Pw by (rewrite Pk by discriminate; reflexivity).
  assert (dget "height" prof = Some (MNat h)) as Ph by (rewrite Pk by discriminate; reflexivity).
  assert (dget "dtype" prof = Some (MStr "float32")) as Pt by (rewrite Pk by discriminate; reflexivity).
  assert (dget "driver" prof = Some (MStr "GTiff")) as Pd by (rewrite Pk by discriminate; reflexivity).
  assert (dget "nodata" prof = Some MNaN) as Pn by (rewrite Pk by discriminate; reflexivity).
  destruct (CC fp prof h w "float32" Ph Pw Pc Pt Pd) as (ds & Er & WF & Eh & Ew & Eb & Em & Ec & Et & Ek).
  unfold write_output. rewrite E, Er. cbn [bind]. unfold with_raster.
  destruct (setitem_ok d _ FS cast (Raster ds 1) (RowsCols full_slice full_slice) 0 h 0 w arr)
    as (t & ds' & Ht & -> & (WB' & _) & Eh' & Ew' & Ep' & Ec' & Eo' & _ & Ed' & _ & Px & _); cbn [ra_dataset ra_band] in *.
  { exact WF. } { unfold ds_count. lia. } { exact Ec. } { now right. }
  { rewrite Eh, Ew. split; apply selects_full. } { now rewrite !Nat.sub_0_r. }
  unfold ra_close. cbn [ra_dataset ra_band]. rewrite Eo'. cbn [negb bind].
  unfold ds_count in Ec'.
  eexists. exists t. split; [reflexivity|]. unfold ra_shape, ra_dtype, ds_count, ds_close.
  cbn [ra_dataset ra_band ds_height ds_width ds_bands ds_dtypes ds_closed ds_profile].
  rewrite Eh', Ew', Eh, Ew, Ec', Eb, Ed', Ht. repeat (split; [reflexivity|]).
  assert (tname t = "float32") as Tn.
  { destruct (ds_dtypes ds) as [|x [|y l]]; cbn in Et; try discriminate Et. injection Et as Et. cbn in Ht. congruence. }
  split; [exact Tn|].
  assert (ds_bands ds' = [map (map (cast t)) arr]) as Eband.
  { rewrite Eb in Ec'. destruct (ds_bands ds') as [|b [|b' l]] eqn:Ebs; cbn in Ec'; try discriminate Ec'. f_equal.
    rewrite Eh', Ew', Eh, Ew in WB'. destruct G as [L R].
    apply (grid_ext d _ _ h w); [apply WB'; now left| |].
    - split; [now rewrite map_length|]. intros i Hi. rewrite (nth_map_lt _ _ _ []) by lia. rewrite map_length. now apply R.
    - intros i j Hi Hj. specialize (Px i j ltac:(lia) ltac:(lia)). unfold pixel in Px. rewrite Ebs in Px. cbn [nth Nat.sub] in Px.
      rewrite Px, !Nat.sub_0_r. rewrite (nth_map_lt _ _ _ []) by lia. rewrite (nth_map_lt _ _ _ d) by (rewrite R by lia; lia). reflexivity. }
  split; [exact Eband|]. split; [reflexivity|]. rewrite Ep'. split.
  - intros k v I. apply Ek.
    + cbn in I. unfold kept. cbn. intuition congruence.
    + cbn in I. intuition congruence.
  - intros l k v -> Hk Hv. apply Ek.
    + unfold kept. cbn. intuition auto.
    + rewrite Pk by (destruct Hk as [-> | ->]; discriminate). cbn [output_args ca_like ca_kwargs].
      destruct Hk as [-> | ->]; cbn [String.eqb Ascii.eqb Bool.eqb ca_crs ca_transform dget]; exact Hv.
Qed.

(** The options handed to rasterio for these files, whatever [like] was made with:
    blocks of 512 by 512 pixels, compressed. Its other options are those of [like]. *)
Theorem C64_output_options {P T} (rcreate : string -> dict meta -> res (dataset meta P T)) from_slices
    (cast : T -> P -> P) fp shape (like : option (raster_obj meta P T)) arr r :
  write_output rcreate from_slices cast fp shape like arr = Ok r ->
  exists (prof : dict meta) (ds : dataset meta P T), rcreate fp prof = Ok ds /\
    (forall k v, In (k, v) [("tiled", MBool true); ("blockxsize", MNat 512); ("blockysize", MNat 512); ("compress", MStr "DEFLATE")] ->
      dget k prof = Some v) /\
    (forall l k, like = Some l ->
      ~ In k ["width"; "height"; "count"; "dtype"; "driver"; "nodata"; "tiled"; "blockxsize"; "blockysize"; "compress"] ->
      dget k prof = dget k (ds_profile (ra_dataset l))).
Proof.
  intros H.
  assert (NoDup (map fst (ca_kwargs (@output_args P T shape like)))) as Nd.
  { cbn [output_args ca_kwargs map fst]. repeat constructor; cbn; intuition discriminate. }
  destruct (C64_create rcreate (MNat 1) fp _ Nd) as (prof & E & Pc & Pk).
  unfold write_output in H. rewrite E in H. destruct (rcreate fp prof) as [ds|] eqn:Er; [|discriminate H].
  exists prof, ds. split; [exact Er|]. split.
  - intros k v I. cbn in I. rewrite Pk by intuition congruence. intuition (match goal with X : _ = _ |- _ => injection X as <- <- end; reflexivity).
  - intros l k -> N. rewrite Pk by (intros ->; apply N; cbn; tauto). cbn [output_args ca_width ca_height ca_dtype ca_driver ca_crs ca_transform ca_nodata ca_like ca_kwargs dget].
    assert (forall c, In c ["width"; "height"; "count"; "dtype"; "driver"; "nodata"; "tiled"; "blockxsize"; "blockysize"; "compress"] ->
      (k =? c)%string = false /\ (c =? k)%string = false) as D.
    { intros c I. destruct (String.eqb_spec k c) as [->|]; [contradiction|]. destruct (String.eqb_spec c k) as [<-|]; [contradiction|auto]. }
    repeat match goal with |- context [(k =? ?c)%string] => first [rewrite (proj1 (D c ltac:(cbn; tauto)))|destruct (k =? c)%string] end;
      repeat match goal with |- context [(?c =? k)%string] => rewrite (proj2 (D c ltac:(cbn; tauto))) end; reflexivity.
Qed.
Example C64_output_options_witness : let a := @output_args nat string (2, 1) (Some (Raster (demo_ds "r") 1)) in
  map (fun k => dget k (create_profile (MNat 1) a)) ["tiled"; "blockxsize"; "compress"; "interleave"]
  = [Some (MBool true); Some (MNat 512); Some (MStr "DEFLATE"); Some (MStr "band")].
Proof. reflexivity. Qed.

(** An array of another shape is not written: the call raises. *)
Theorem C64_output_shape {P T} rcreate from_slices (cast : T -> P -> P) (tname : T -> string) fp h w
    (like : option (raster_obj meta P T)) arr :
  create_contract rcreate tname -> slices_contract from_slices -> ~ grid arr h w ->
  write_output rcreate from_slices cast fp (h, w) like arr = Err ValueError.
Proof.
  intros CC FS G.
  assert (NoDup (map fst (ca_kwargs (@output_args P T (h, w) like)))) as Nd.
  { cbn [output_args ca_kwargs map fst]. repeat constructor; cbn; intuition discriminate. }
  destruct (C64_create rcreate (MNat 1) fp _ Nd) as (prof & E & Pc & Pk).
  destruct (CC fp prof h w "float32") as (ds & Er & WF & Eh & Ew & Eb & Em & Ec & _); try (rewrite Pk by discriminate; reflexivity); auto.
  unfold write_output. rewrite E, Er. cbn [bind]. unfold with_raster, ra_setitem, window_from_slices, ra_shape. cbn [ra_dataset ra_band].
  rewrite (FS full_slice full_slice _ _ 0 h 0 w) by (rewrite ?Eh, ?Ew; apply selects_full). cbn [bind].
  assert (has_shape arr (h - 0) (w - 0) = false) as Hs.
  { rewrite !Nat.sub_0_r. destruct (has_shape arr h w) eqn:X; [|reflexivity]. exfalso. apply G.
    unfold has_shape in X. apply andb_true_iff in X as [X1 X2]. apply Nat.eqb_eq in X1. rewrite forallb_forall in X2.
    split; [exact X1|]. intros i Hi. apply Nat.eqb_eq, X2, nth_In. lia. }
  unfold ds_write. rewrite Ec, Em. cbn [orb negb writable String.eqb Ascii.eqb Bool.eqb w_rows w_cols w_row w_col].
  unfold inside. cbn [w_rows w_cols w_row w_col]. rewrite Eh, Ew.
  replace (0 + (h - 0) <=? h) with true by (symmetry; apply Nat.leb_le; lia).
  replace (0 + (w - 0) <=? w) with true by (symmetry; apply Nat.leb_le; lia). cbn [andb negb].
  rewrite Hs. reflexivity.
Qed.

(** A creation function meeting the contract. *)
Definition demo_create (_ : string) (prof : dict meta) : res (dataset meta nat string) :=
  match dget "height" prof, dget "width" prof, dget "dtype" prof with
  | Some (MNat h), Some (MNat w), Some (MStr t) => Ok (Dataset prof h w [repeat (repeat 0 w) h] [t] [None] "w+" false)
  | _, _, _ => Err ValueError
  end.

Example C64_output_shape_witness : ~ grid [[5]; [6; 7]] 2 1 /\
  write_output demo_create demo_slices (fun _ p => p) "a.tif" (2, 1) (Some (Raster (demo_ds "r") 1)) [[5]; [6; 7]] = Err ValueError.
Proof. split; [|reflexivity]. intros [_ H]. specialize (H 1 ltac:(lia)). discriminate H. Qed.

Example C64_output_witness :
  create_contract demo_create (fun t => t) /\
  exists r, write_output demo_create demo_slices (fun _ p => p) "a.tif" (2, 1) (Some (Raster (demo_ds "r") 1)) [[5]; [6]] = Ok r /\
    ds_bands (ra_dataset r) = [[[5]; [6]]] /\ dget "crs" (ds_profile (ra_dataset r)) = Some (MOther 7).
Proof.
  split; [|eexists; repeat split; reflexivity].
  intros fp prof h w t Eh Ew Ec Et Ed. unfold demo_create. rewrite Eh, Ew, Et. eexists. split; [reflexivity|].
  cbn. repeat split; auto.
  - destruct H as [<-|[]]. apply repeat_length.
  - destruct H as [<-|[]]. intros i Hi. rewrite (nth_indep _ [] (repeat 0 w)) by (rewrite repeat_length; exact Hi).
    now rewrite nth_repeat, repeat_length.
Qed.

(** Closing is idempotent, keeps the contents, and happens at the end of a with
    block whether or not its body raised; the exception is passed on. *)
Theorem C64_close {V P T} (r : raster_obj V P T) :
  ds_closed (ra_dataset (ra_close r)) = true /\ ra_close (ra_close r) = ra_close r /\
  ds_bands (ra_dataset (ra_close r)) = ds_bands (ra_dataset r) /\ ds_profile (ra_dataset (ra_close r)) = ds_profile (ra_dataset r) /\
  forall X (body : raster_obj V P T -> raster_obj V P T * res X),
    ds_closed (ra_dataset (fst (with_raster r body))) = true /\ snd (with_raster r body) = snd (body r) /\
    ds_bands (ra_dataset (fst (with_raster r body))) = ds_bands (ra_dataset (fst (body r))).
Proof.
  assert (forall q : raster_obj V P T, ds_closed (ra_dataset (ra_close q)) = true /\ ds_bands (ra_dataset (ra_close q)) = ds_bands (ra_dataset q)) as K.
  { intros q. unfold ra_close. now destruct (ds_closed (ra_dataset q)) eqn:E. }
  split; [apply K|]. split; [|split; [apply K|split]].
  - unfold ra_close at 1. destruct (K r) as [-> _]. reflexivity.
  - unfold ra_close. now destruct (ds_closed (ra_dataset r)) eqn:E.
  - intros X body. unfold with_raster. destruct (body r) as [q x]. cbn [fst snd]. repeat split; apply K.
Qed.

Example C64_close_witness :
  ds_closed (ra_dataset (fst (with_raster (Raster (demo_ds "r") 1) (fun r => (r, @Err nat ValueError))))) = true /\
  snd (with_raster (Raster (demo_ds "r") 1) (fun r => (r, @Err nat ValueError))) = Err ValueError /\
  ra_getitem 0 demo_slices (ra_close (Raster (demo_ds "r") 1)) (Rows full_slice) = Err RuntimeError.
Proof. repeat split; reflexivity. Qed.

(** Type and nodata value are those of the raster's own band. *)
Theorem C64_band_properties {V P T} (r : raster_obj V P T) t :
  well_formed (ra_dataset r) -> 1 <= ra_band r <= ds_count (ra_dataset r) ->
  ra_dtype r = Ok (nth (ra_band r - 1) (ds_dtypes (ra_dataset r)) t) /\
  ra_nodata r = Ok (nth (ra_band r - 1) (ds_nodata (ra_dataset r)) None).
Proof.
  intros (_ & L1 & L2) B. unfold ra_dtype, ra_nodata, ds_count in *.
  rewrite (nth_error_nth' _ t) by lia. rewrite (nth_error_nth' _ None) by lia. split; reflexivity.
Qed.

Example C64_band_properties_witness :
  well_formed (demo_ds "r") /\ ra_nodata (Raster (demo_ds "r") 2) = Ok (Some 255) /\ ra_nodata (Raster (demo_ds "r") 1) = Ok None.
Proof. split; [apply demo_well_formed|]. split; reflexivity. Qed.

Print Assumptions C63_getitem.
Print Assumptions C63_setitem.
Print Assumptions C63_read_back.
Print Assumptions C63_array.
Print Assumptions C63_rejects.
Print Assumptions C64_open.
Print Assumptions C64_open_errors.
Print Assumptions C64_open_closes_on_error_refuted.
Print Assumptions C64_create.
Print Assumptions C64_output.
Print Assumptions C64_output_options.
Print Assumptions C64_output_shape.
Print Assumptions C64_close.
Print Assumptions C64_band_properties.
