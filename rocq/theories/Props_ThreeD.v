(** C48, C49: the three-dimensional inputs. *)
From Coq Require Import ZifyBool.
From Verif Require Import Base BaseLemmas ThreeDModel ThreeDSpec ThreeDProofs.
Import ListNotations.
Set Default Goal Selector "!".

Section Reg.
  Context {A : Type} (d : A).

  Lemma reg_init_stored x nt h w (flat : list A) :
    reg3d_init (NdArray (stored_shape x nt h w) flat) (axis_number x)
    = Ok (Reg3D (NdArray (stored_shape x nt h w) flat) (axis_number x)).
  Proof. destruct x; reflexivity. Qed.

  Lemma space_shape_stored x nt h w (flat : list A) :
    space_shape (Reg3D (NdArray (stored_shape x nt h w) flat) (axis_number x)) = [h; w].
  Proof. destruct x; reflexivity. Qed.

  (** [reg3d_init] accepts three axes and an axis number below three. *)
  Theorem C48_reg_init (data : ndarray A) td :
    (length (nd_shape data) = 3 /\ (td < 3)%Z -> reg3d_init data td = Ok (Reg3D data td)) /\
    (~ (length (nd_shape data) = 3 /\ (td < 3)%Z) -> reg3d_init data td = Err ValueError).
  Proof.
    unfold reg3d_init, nd_ndim.
    destruct (Z.of_nat (length (nd_shape data)) =? 3)%Z eqn:E1; cbn [negb];
      [|split; [lia | reflexivity]].
    destruct (Z.of_nat (length (nd_shape data)) <=? td)%Z eqn:E2;
      [split; [lia | reflexivity]|]. split; [reflexivity | lia].
  Qed.

  Lemma time_slice_stored x nt h w flat t : t < nt ->
    exists ts,
      reg_get_time_slice d (Reg3D (NdArray (stored_shape x nt h w) flat) (axis_number x)) (Z.of_nat t)
        = Ok ts /\
      length ts = h * w /\
      forall i j, i < h -> j < w -> nth (i * w + j) ts d = sample d x nt h w flat t i j.
  Proof.
    intros Ht. unfold reg_get_time_slice. destruct x.
    - destruct (getitem3 d nt h w flat (SRange (Z.of_nat t) (Z.of_nat t + 1)) SAll SAll) as (r & E & L & G).
      rewrite !slice_one, !slice_all, !seq_length in * by lia. cbn [length] in L, G.
      exists r. split; [exact E|]. split; [lia|]. intros i j Hi Hj.
      specialize (G 0 i j). rewrite !seq_nth in G by lia. cbn [sample]. cbn [nth] in G.
      replace ((0 * h + i) * w + j) with (i * w + j) in G by lia. apply G; lia.
    - destruct (getitem3 d h nt w flat SAll (SRange (Z.of_nat t) (Z.of_nat t + 1)) SAll) as (r & E & L & G).
      rewrite !slice_one, !slice_all, !seq_length in * by lia. cbn [length] in L, G.
      exists r. split; [exact E|]. split; [lia|]. intros i j Hi Hj.
      specialize (G i 0 j). rewrite !seq_nth in G by lia. cbn [sample]. cbn [nth] in G.
      replace ((i * 1 + 0) * w + j) with (i * w + j) in G by lia. apply G; lia.
    - destruct (getitem3 d h w nt flat SAll SAll (SRange (Z.of_nat t) (Z.of_nat t + 1))) as (r & E & L & G).
      rewrite !slice_one, !slice_all, !seq_length in * by lia. cbn [length] in L, G.
      exists r. split; [exact E|]. split; [lia|]. intros i j Hi Hj.
      specialize (G i j 0). rewrite !seq_nth in G by lia. cbn [sample]. cbn [nth] in G.
      replace ((i * w + j) * 1 + 0) with (i * w + j) in G by lia. apply G; lia.
  Qed.

  Lemma unravel_stored h w i j : i < h -> j < w ->
    unravel_index (Z.of_nat (i * w + j)) [h; w] = Ok [i; j].
  Proof.
    intros Hi Hj. unfold unravel_index. cbn [prod fold_right].
    assert (K : i * w + j < h * (w * 1)) by nia.
    replace (Z.of_nat (i * w + j) <? 0)%Z with false by lia.
    rewrite (proj2 (Z.leb_gt _ _)) by (apply Nat2Z.inj_lt, K).
    cbn [orb unravel prod fold_right]. rewrite Nat2Z.id. rewrite !Nat.mul_1_r.
    replace ((i * w + j) / w) with i
      by (apply (Nat.div_unique _ _ _ j); lia).
    replace ((i * w + j) mod w) with j by (apply (Nat.mod_unique _ _ i); lia).
    rewrite Nat.div_1_r. reflexivity.
  Qed.

  Lemma spatial_slice_stored x nt h w flat i j : i < h -> j < w ->
    exists ss,
      reg_get_spatial_slice d (Reg3D (NdArray (stored_shape x nt h w) flat) (axis_number x))
        (Z.of_nat (i * w + j)) = Ok ss /\
      length ss = nt /\
      forall t, t < nt -> nth t ss d = sample d x nt h w flat t i j.
  Proof.
    intros Hi Hj. unfold reg_get_spatial_slice. rewrite space_shape_stored, unravel_stored by assumption.
    cbn [bind map]. destruct x.
    - destruct (getitem3 d nt h w flat SAll (SRange (Z.of_nat i) (Z.of_nat i + 1))
                  (SRange (Z.of_nat j) (Z.of_nat j + 1))) as (r & E & L & G).
      rewrite !slice_one, !slice_all, !seq_length in * by lia. cbn [length] in L, G.
      exists r. split; [exact E|]. split; [lia|]. intros t Ht.
      specialize (G t 0 0). rewrite !seq_nth in G by lia. cbn [sample]. cbn [nth] in G.
      replace ((t * 1 + 0) * 1 + 0) with t in G by lia. apply G; lia.
    - destruct (getitem3 d h nt w flat (SRange (Z.of_nat i) (Z.of_nat i + 1)) SAll
                  (SRange (Z.of_nat j) (Z.of_nat j + 1))) as (r & E & L & G).
      rewrite !slice_one, !slice_all, !seq_length in * by lia. cbn [length] in L, G.
      exists r. split; [exact E|]. split; [lia|]. intros t Ht.
      specialize (G 0 t 0). rewrite !seq_nth in G by lia. cbn [sample]. cbn [nth] in G.
      replace ((0 * nt + t) * 1 + 0) with t in G by lia. apply G; lia.
    - destruct (getitem3 d h w nt flat (SRange (Z.of_nat i) (Z.of_nat i + 1))
                  (SRange (Z.of_nat j) (Z.of_nat j + 1)) SAll) as (r & E & L & G).
      rewrite !slice_one, !slice_all, !seq_length in * by lia. cbn [length] in L, G.
      exists r. split; [exact E|]. split; [lia|]. intros t Ht.
      specialize (G 0 0 t). rewrite !seq_nth in G by lia. cbn [sample]. cbn [nth] in G.
      replace ((0 * 1 + 0) * nt + t) with t in G by lia. apply G; lia.
  Qed.

  (** * C48, regular input *)

  (** A cube stored with time on any axis: shape, and every sample read through
      either kind of slice. *)
  Theorem C48_reg x nt h w flat :
    exists r, reg3d_init (NdArray (stored_shape x nt h w) flat) (axis_number x) = Ok r /\
      reg_time_dim r + reg_space_dim r = 1 /\
      (exists sh0 sh1, reg_shape r = Ok (sh0, sh1) /\
         nth (reg_time_dim r) [sh0; sh1] 0 = nt /\ nth (reg_space_dim r) [sh0; sh1] 0 = h * w) /\
      (forall t, t < nt -> exists ts, reg_get_time_slice d r (Z.of_nat t) = Ok ts /\ length ts = h * w /\
         forall i j, i < h -> j < w -> nth (i * w + j) ts d = sample d x nt h w flat t i j) /\
      (forall i j, i < h -> j < w ->
         exists ss, reg_get_spatial_slice d r (Z.of_nat (i * w + j)) = Ok ss /\ length ss = nt /\
         forall t, t < nt -> nth t ss d = sample d x nt h w flat t i j).
  Proof.
    eexists. split; [apply reg_init_stored|]. split; [destruct x; reflexivity|]. split.
    { unfold reg_shape, space_size. rewrite space_shape_stored.
      cbn [prod fold_right]. rewrite Nat.mul_1_r. destruct x; cbn; do 2 eexists; repeat split. }
    split.
    - intros t Ht. apply time_slice_stored, Ht.
    - intros i j Hi Hj. apply spatial_slice_stored; assumption.
  Qed.

  (** The two views agree on every sample. *)
  Theorem C48_reg_consistent x nt h w flat r t s :
    reg3d_init (NdArray (stored_shape x nt h w) flat) (axis_number x) = Ok r ->
    t < nt -> s < h * w ->
    exists ts ss, reg_get_time_slice d r (Z.of_nat t) = Ok ts /\
      reg_get_spatial_slice d r (Z.of_nat s) = Ok ss /\
      s < length ts /\ t < length ss /\ nth s ts d = nth t ss d.
  Proof.
    rewrite reg_init_stored. intros [= <-] Ht Hs.
    assert (Hw : w <> 0) by (intros ->; lia).
    assert (Hi : s / w < h) by (apply Nat.div_lt_upper_bound; lia).
    assert (Hj : s mod w < w) by (apply Nat.mod_upper_bound; lia).
    assert (Es : s = s / w * w + s mod w) by (pose proof (Nat.div_mod s w Hw); lia).
    destruct (time_slice_stored x nt h w flat t Ht) as (ts & E1 & L1 & G1).
    destruct (spatial_slice_stored x nt h w flat (s / w) (s mod w) Hi Hj) as (ss & E2 & L2 & G2).
    rewrite <- Es in E2. exists ts, ss. split; [exact E1|]. split; [exact E2|].
    split; [lia|]. split; [lia|]. rewrite G2 by exact Ht.
    rewrite Es at 1. apply G1; assumption.
  Qed.

  (** All time slices together are the cube, each element once; so are all
      spatial slices. *)
  Definition get (r : res (list A)) : list A := match r with Ok l => l | Err _ => [] end.

  Lemma reg_flat_index x nt h w flat t s : w <> 0 ->
    sample d x nt h w flat t (s / w) (s mod w)
    = nth (match x with
           | Axis0 => t * (h * w) + s
           | Axis1 => (s / w * nt + t) * w + s mod w
           | Axis2 => s * nt + t
           end) flat d.
  Proof.
    intros Hw. assert (Es : s = s / w * w + s mod w) by (pose proof (Nat.div_mod s w Hw); lia).
    destruct x; cbn [sample]; unfold at3; f_equal; nia.
  Qed.

  Theorem C48_reg_enumerates x nt h w flat r :
    reg3d_init (NdArray (stored_shape x nt h w) flat) (axis_number x) = Ok r ->
    nd_wf (NdArray (stored_shape x nt h w) flat) ->
    Permutation (flat_map (fun t => get (reg_get_time_slice d r (Z.of_nat t))) (seq 0 nt)) flat /\
    Permutation (flat_map (fun s => get (reg_get_spatial_slice d r (Z.of_nat s))) (seq 0 (h * w))) flat.
  Proof.
    rewrite reg_init_stored. intros [= <-] Wf.
    assert (L : length flat = nt * (h * w)).
    { unfold nd_wf in Wf. cbn [nd_flat nd_shape] in Wf. rewrite Wf.
      destruct x; cbn [stored_shape prod fold_right]; lia. }
    destruct (Nat.eq_dec w 0) as [->|Hw].
    { rewrite !Nat.mul_0_r in *. apply length_zero_iff_nil in L as ->. cbn [seq flat_map].
      split; [|constructor].
      assert (E : forall n k, k + n <= nt ->
        flat_map (fun t => get (reg_get_time_slice d
          (Reg3D (NdArray (stored_shape x nt h 0) []) (axis_number x)) (Z.of_nat t))) (seq k n) = []).
      { induction n as [|n IH]; intros k Hk; [reflexivity|]. cbn [seq flat_map].
        rewrite IH by lia. rewrite app_nil_r.
        destruct (time_slice_stored x nt h 0 [] k) as (ts & E & Ln & _); [lia|].
        rewrite E. cbn [get]. apply length_zero_iff_nil. lia. }
      rewrite E by lia. constructor. }
    set (f := fun t s => match x with
           | Axis0 => t * (h * w) + s
           | Axis1 => (s / w * nt + t) * w + s mod w
           | Axis2 => s * nt + t
           end).
    assert (DM : forall s, s = s / w * w + s mod w /\ s mod w < w).
    { intros s. pose proof (Nat.div_mod s w Hw). pose proof (Nat.mod_upper_bound s w Hw). lia. }
    assert (Q : forall s, s < h * w -> s / w < h).
    { intros s Hs. apply Nat.div_lt_upper_bound; lia. }
    assert (B : forall t s, t < nt -> s < h * w -> f t s < nt * (h * w)).
    { intros t s Ht Hs. pose proof (DM s). pose proof (Q s Hs). unfold f. destruct x; [nia| |nia].
      remember (s / w) as a. remember (s mod w) as b.
      assert (a * nt + t < h * nt) by nia. nia. }
    assert (I : forall a b a' b', a < nt -> b < h * w -> a' < nt -> b' < h * w ->
                f a b = f a' b' -> a = a' /\ b = b').
    { intros a b a' b' Ha Hb Ha' Hb' E. unfold f in E.
      pose proof (DM b) as [D1 D2]. pose proof (DM b') as [D1' D2'].
      destruct x.
      - assert (X : forall u v u' v' m, v < m -> v' < m -> u * m + v = u' * m + v' -> u = u' /\ v = v').
        { intros u v u' v' m Hv Hv' Em.
          assert (u = u') by (destruct (Nat.lt_trichotomy u u') as [C|[C|C]]; [nia|exact C|nia]).
          subst. lia. }
        apply (X a b a' b' (h * w)); assumption.
      - assert (X : forall u v u' v' m, v < m -> v' < m -> u * m + v = u' * m + v' -> u = u' /\ v = v').
        { intros u v u' v' m Hv Hv' Em.
          assert (u = u') by (destruct (Nat.lt_trichotomy u u') as [C|[C|C]]; [nia|exact C|nia]).
          subst. lia. }
        apply X in E as [E1 E2]; [|assumption|assumption].
        apply X in E1 as [E1 E3]; [|assumption|assumption]. split; [exact E3|].
        rewrite D1, D1', E1, E2. reflexivity.
      - assert (X : forall u v u' v' m, v < m -> v' < m -> u * m + v = u' * m + v' -> u = u' /\ v = v').
        { intros u v u' v' m Hv Hv' Em.
          assert (u = u') by (destruct (Nat.lt_trichotomy u u') as [C|[C|C]]; [nia|exact C|nia]).
          subst. lia. }
        apply (X b a b' a' nt) in E; [tauto|assumption|assumption]. }
    split.
    - eapply Permutation_trans; [|apply (perm_through_index d flat f nt (h * w) L B I)].
      rewrite !flat_map_concat_map. erewrite map_ext_in; [apply Permutation_refl|].
      intros t Ht. apply in_seq in Ht. cbn beta.
      destruct (time_slice_stored x nt h w flat t) as (ts & E & Ln & G); [lia|].
      rewrite E. cbn [get]. apply nth_ext_len with (d := d); [rewrite map_length, seq_length; exact Ln|].
      intros s Hs. rewrite Ln in Hs.
      rewrite (map_nth' _ (seq 0 (h * w)) s 0 d) by (rewrite seq_length; exact Hs).
      rewrite seq_nth by exact Hs. cbn [Nat.add].
      pose proof (DM s) as [D1 D2]. rewrite D1 at 1. rewrite G; [|apply Q; exact Hs|exact D2].
      apply reg_flat_index, Hw.
    - rewrite Nat.mul_comm in L.
      eapply Permutation_trans; [|apply (perm_through_index d flat (fun s t => f t s) (h * w) nt L)].
      + rewrite !flat_map_concat_map. erewrite map_ext_in; [apply Permutation_refl|].
        intros s Hs. apply in_seq in Hs. cbn beta.
        pose proof (DM s) as [D1 D2].
        destruct (spatial_slice_stored x nt h w flat (s / w) (s mod w)) as (ss & E & Ln & G);
          [apply Q; lia|exact D2|].
        rewrite <- D1 in E. rewrite E. cbn [get].
        apply nth_ext_len with (d := d); [rewrite map_length, seq_length; exact Ln|].
        intros t Ht. rewrite Ln in Ht.
        rewrite (map_nth' _ (seq 0 nt) t 0 d) by (rewrite seq_length; exact Ht).
        rewrite seq_nth by exact Ht. cbn [Nat.add]. rewrite G by exact Ht.
        apply reg_flat_index, Hw.
      + intros s t Hs Ht. rewrite Nat.mul_comm. apply B; assumption.
      + intros s t s' t' Hs Ht Hs' Ht' E. apply I in E; tauto.
  Qed.

  (** Indices out of range: a spatial index raises, a time index gives nothing. *)
  Theorem C48_reg_out_of_range x nt h w flat r k :
    reg3d_init (NdArray (stored_shape x nt h w) flat) (axis_number x) = Ok r ->
    ((k < 0)%Z \/ (Z.of_nat (h * w) <= k)%Z -> reg_get_spatial_slice d r k = Err ValueError) /\
    ((Z.of_nat nt <= k)%Z -> reg_get_time_slice d r k = Ok []).
  Proof.
    rewrite reg_init_stored. intros [= <-]. split.
    - intros Hk. unfold reg_get_spatial_slice. rewrite space_shape_stored. unfold unravel_index.
      cbn [prod fold_right]. rewrite Nat.mul_1_r.
      replace ((k <? 0) || (Z.of_nat (h * w) <=? k))%Z with true by lia. reflexivity.
    - intros Hk. unfold reg_get_time_slice.
      assert (S : slice_indices (SRange k (k + 1)) nt = []).
      { cbn [slice_indices]. unfold clamp.
        replace (k <? 0)%Z with false by lia. replace (k + 1 <? 0)%Z with false by lia.
        rewrite !Z.min_l by lia. rewrite Nat.sub_diag. reflexivity. }
      destruct x.
      + destruct (getitem3 d nt h w flat (SRange k (k + 1)) SAll SAll) as (l & E & L & _).
        rewrite S in L. cbn [length] in L. rewrite Nat.mul_0_l in L. apply length_zero_iff_nil in L as ->. exact E.
      + destruct (getitem3 d h nt w flat SAll (SRange k (k + 1)) SAll) as (l & E & L & _).
        rewrite S in L. cbn [length] in L. rewrite Nat.mul_0_l, Nat.mul_0_r in L. apply length_zero_iff_nil in L as ->. exact E.
      + destruct (getitem3 d h w nt flat SAll SAll (SRange k (k + 1))) as (l & E & L & _).
        rewrite S in L. cbn [length] in L. rewrite !Nat.mul_0_r in L. apply length_zero_iff_nil in L as ->. exact E.
  Qed.

  (** A negative time index counts from the end, as in Python, except that -1
      gives nothing. *)
  Theorem C48_reg_negative_time x nt h w flat r k :
    reg3d_init (NdArray (stored_shape x nt h w) flat) (axis_number x) = Ok r ->
    ((- Z.of_nat nt <= k < -1)%Z -> reg_get_time_slice d r k = reg_get_time_slice d r (k + Z.of_nat nt)) /\
    (k = (-1)%Z \/ (k < - Z.of_nat nt)%Z -> reg_get_time_slice d r k = Ok []).
  Proof.
    rewrite reg_init_stored. intros [= <-]. split.
    - intros Hk. unfold reg_get_time_slice.
      assert (S : slice_indices (SRange k (k + 1)) nt = slice_indices (SRange (k + Z.of_nat nt) (k + Z.of_nat nt + 1)) nt).
      { cbn [slice_indices]. unfold clamp.
        replace (k <? 0)%Z with true by lia. replace (k + 1 <? 0)%Z with true by lia.
        replace (k + Z.of_nat nt <? 0)%Z with false by lia. replace (k + Z.of_nat nt + 1 <? 0)%Z with false by lia.
        rewrite !Z.max_r by lia. replace (k + 1 + Z.of_nat nt)%Z with (k + Z.of_nat nt + 1)%Z by lia. reflexivity. }
      unfold getitem, one_axis. destruct x; cbn in S |- *; rewrite S; reflexivity.
    - intros Hk. unfold reg_get_time_slice.
      assert (S : slice_indices (SRange k (k + 1)) nt = []).
      { cbn [slice_indices].
        assert (clamp (k + 1) nt <= clamp k nt) by (unfold clamp; destruct (Z.ltb_spec k 0), (Z.ltb_spec (k + 1) 0); lia).
        replace (clamp (k + 1) nt - clamp k nt) with 0 by lia. reflexivity. }
      destruct x.
      + destruct (getitem3 d nt h w flat (SRange k (k + 1)) SAll SAll) as (l & E & L & _).
        rewrite S in L. cbn [length] in L. rewrite Nat.mul_0_l in L. apply length_zero_iff_nil in L as ->. exact E.
      + destruct (getitem3 d h nt w flat SAll (SRange k (k + 1)) SAll) as (l & E & L & _).
        rewrite S in L. cbn [length] in L. rewrite Nat.mul_0_l, Nat.mul_0_r in L. apply length_zero_iff_nil in L as ->. exact E.
      + destruct (getitem3 d h w nt flat SAll SAll (SRange k (k + 1))) as (l & E & L & _).
        rewrite S in L. cbn [length] in L. rewrite !Nat.mul_0_r in L. apply length_zero_iff_nil in L as ->. exact E.
  Qed.

  (** A negative time axis passes the constructor, but then "time slices" are
      the whole cube and no spatial slice can be read. *)
  Theorem C48_negative_axis_refuted n0 n1 n2 flat r k s :
    reg3d_init (NdArray [n0; n1; n2] flat) (-1) = Ok r ->
    (exists ts, reg_get_time_slice d r k = Ok ts /\ length ts = n0 * (n1 * n2)) /\
    exists e, reg_get_spatial_slice d r s = Err e.
  Proof.
    intros [= <-]. split.
    - destruct (getitem3 d n0 n1 n2 flat SAll SAll SAll) as (l & E & L & _).
      rewrite !slice_all, !seq_length in L. exists l. split; [exact E | exact L].
    - unfold reg_get_spatial_slice. cbn [r_data r_time_dim].
      assert (S : space_shape (Reg3D (NdArray [n0; n1; n2] flat) (-1)) = [n0; n1; n2]) by reflexivity.
      rewrite S. unfold unravel_index.
      destruct ((s <? 0) || (Z.of_nat (prod [n0; n1; n2]) <=? s))%Z; [eexists; reflexivity|].
      cbn [bind unravel map]. eexists. reflexivity.
  Qed.

  (** * C49 *)

  (** Entries for the first [h * w] positions are the column and the row of the
      point; the arrays are as long as the whole cube. *)
  Theorem C49_coords_partial x nt h w (flat : list A) r :
    reg3d_init (NdArray (stored_shape x nt h w) flat) (axis_number x) = Ok r ->
    length (reg_xcoords r) = nt * (h * w) /\ length (reg_ycoords r) = nt * (h * w) /\
    (nt <> 0 -> forall i j, i < h -> j < w ->
       nth (i * w + j) (reg_xcoords r) 0 = j /\ nth (i * w + j) (reg_ycoords r) 0 = i).
  Proof.
    rewrite reg_init_stored. intros [= <-].
    unfold reg_xcoords, reg_ycoords. rewrite space_shape_stored. cbn [r_data nd_shape nth].
    assert (P : prod (stored_shape x nt h w) = nt * (h * w))
      by (destruct x; cbn [stored_shape prod fold_right]; lia).
    rewrite P, !map_length, seq_length. split; [reflexivity|]. split; [reflexivity|].
    intros Hn i j Hi Hj. assert (K : i * w + j < nt * (h * w)).
    { assert (i * w + j < h * w) by nia. destruct nt; [lia|]. cbn [Nat.mul]. lia. }
    rewrite !(map_nth' _ (seq 0 (nt * (h * w))) (i * w + j) 0 0) by (rewrite seq_length; exact K).
    rewrite seq_nth by exact K. cbn [Nat.add]. split.
    - symmetry. apply (Nat.mod_unique _ _ i); lia.
    - symmetry. apply (Nat.div_unique _ _ _ j); lia.
  Qed.

  (** One entry per spatial point exactly when there is a single epoch (or no
      point at all). *)
  Theorem C49_length_iff x nt h w (flat : list A) r :
    reg3d_init (NdArray (stored_shape x nt h w) flat) (axis_number x) = Ok r ->
    (length (reg_xcoords r) = h * w /\ length (reg_ycoords r) = h * w) <-> (nt = 1 \/ h * w = 0).
  Proof.
    intros H. destruct (C49_coords_partial x nt h w flat r H) as (-> & -> & _).
    set (m := h * w). clearbody m. split.
    - intros [E _]. destruct (Nat.eq_dec m 0) as [Z|Z]; [right; exact Z | left; nia].
    - intros [-> | ->]; lia.
  Qed.

  (** Any cube with several epochs has too many coordinates. *)
  Theorem C49_coords_refuted x nt h w (flat : list A) :
    1 < nt -> 0 < h * w ->
    exists r, reg3d_init (NdArray (stored_shape x nt h w) flat) (axis_number x) = Ok r /\
      h * w < length (reg_xcoords r) /\ h * w < length (reg_ycoords r).
  Proof.
    intros Hn Hs. eexists. split; [apply reg_init_stored|].
    destruct (C49_coords_partial x nt h w flat _ (reg_init_stored x nt h w flat)) as (-> & -> & _). nia.
  Qed.

  (** * C48, irregular input *)

  Context {B : Type} (b0 : B).

  Definition dim2 (first : bool) : Z := if first then 0%Z else 1%Z.

  (** Exactly which arguments [irreg3d_init] accepts for an axis number 0 or 1. *)
  Theorem C48_irreg_init first nt n (flat : list A) (xy : ndarray B) :
    (length (nd_shape xy) = 2 /\ nth 0 (nd_shape xy) 0 = n ->
     irreg3d_init (NdArray (stored_shape2 first nt n) flat) xy (dim2 first)
     = Ok (Irreg3D (NdArray (stored_shape2 first nt n) flat) xy (dim2 first))) /\
    (~ (length (nd_shape xy) = 2 /\ nth 0 (nd_shape xy) 0 = n) ->
     irreg3d_init (NdArray (stored_shape2 first nt n) flat) xy (dim2 first) = Err ValueError).
  Proof.
    assert (E0 : irreg3d_init (NdArray (stored_shape2 first nt n) flat) xy (dim2 first)
      = if negb (nd_ndim xy =? 2)%Z then Err ValueError
        else if negb (nth 0 (nd_shape xy) 0 =? n) then Err ValueError
        else Ok (Irreg3D (NdArray (stored_shape2 first nt n) flat) xy (dim2 first)))
      by (destruct first; reflexivity).
    rewrite E0. unfold nd_ndim.
    destruct (Z.of_nat (length (nd_shape xy)) =? 2)%Z eqn:E1; cbn [negb];
      [|split; [lia | reflexivity]].
    destruct (nth 0 (nd_shape xy) 0 =? n) eqn:E2; cbn [negb].
    - split; [reflexivity | lia].
    - split; [lia | reflexivity].
  Qed.

  Theorem C48_irreg first nt n flat (xy : ndarray B) r :
    irreg3d_init (NdArray (stored_shape2 first nt n) flat) xy (dim2 first) = Ok r ->
    irreg_shape r = stored_shape2 first nt n /\
    (forall t, t < nt -> exists ts, irreg_get_time_slice d r (Z.of_nat t) = Ok ts /\ length ts = n /\
       forall s, s < n -> nth s ts d = sample2 d first nt n flat t s) /\
    (forall s, s < n -> exists ss, irreg_get_spatial_slice d r (Z.of_nat s) = Ok ss /\ length ss = nt /\
       forall t, t < nt -> nth t ss d = sample2 d first nt n flat t s).
  Proof.
    intros H.
    assert (r = Irreg3D (NdArray (stored_shape2 first nt n) flat) xy (dim2 first)) as ->.
    { unfold irreg3d_init in H.
      repeat match type of H with context [if ?c then _ else _] => destruct c; [discriminate|] end.
      destruct (py_nth _ _); cbn [bind] in H; [|discriminate].
      destruct (negb _); [discriminate|]. congruence. }
    clear H. split; [reflexivity|]. split.
    - intros t Ht. destruct first.
      + destruct (getitem2 d nt n flat (SRange (Z.of_nat t) (Z.of_nat t + 1)) SAll) as (l & E & L & G).
        rewrite slice_one, slice_all, seq_length in * by lia. cbn [length] in L, G.
        exists l. split; [exact E|]. split; [lia|]. intros s Hs. specialize (G 0 s).
        rewrite seq_nth in G by lia. cbn [nth Nat.mul Nat.add] in G. apply G; lia.
      + destruct (getitem2 d n nt flat SAll (SRange (Z.of_nat t) (Z.of_nat t + 1))) as (l & E & L & G).
        rewrite slice_one, slice_all, seq_length in * by lia. cbn [length] in L, G.
        exists l. split; [exact E|]. split; [lia|]. intros s Hs. specialize (G s 0).
        rewrite seq_nth in G by lia. cbn [nth Nat.add] in G.
        replace (s * 1 + 0) with s in G by lia. apply G; lia.
    - intros s Hs. destruct first.
      + destruct (getitem2 d nt n flat SAll (SRange (Z.of_nat s) (Z.of_nat s + 1))) as (l & E & L & G).
        rewrite slice_one, slice_all, seq_length in * by lia. cbn [length] in L, G.
        exists l. split; [exact E|]. split; [lia|]. intros t Ht. specialize (G t 0).
        rewrite seq_nth in G by lia. cbn [nth Nat.add] in G.
        replace (t * 1 + 0) with t in G by lia. apply G; lia.
      + destruct (getitem2 d n nt flat (SRange (Z.of_nat s) (Z.of_nat s + 1)) SAll) as (l & E & L & G).
        rewrite slice_one, slice_all, seq_length in * by lia. cbn [length] in L, G.
        exists l. split; [exact E|]. split; [lia|]. intros t Ht. specialize (G 0 t).
        rewrite seq_nth in G by lia. cbn [nth Nat.mul Nat.add] in G. apply G; lia.
  Qed.

  (** Coordinates of irregular points: one pair per point, columns 0 and 1. *)
  Theorem C49_irreg first nt n (flat : list A) k (xyflat : list B) r :
    irreg3d_init (NdArray (stored_shape2 first nt n) flat) (NdArray [n; k] xyflat) (dim2 first) = Ok r ->
    1 < k ->
    exists xs ys, irreg_xcoords b0 r = Ok xs /\ irreg_ycoords b0 r = Ok ys /\
      length xs = n /\ length ys = n /\
      forall s, s < n -> nth s xs b0 = nth (s * k) xyflat b0 /\ nth s ys b0 = nth (s * k + 1) xyflat b0.
  Proof.
    intros H Hk.
    rewrite (proj1 (C48_irreg_init first nt n flat (NdArray [n; k] xyflat))) in H by (split; reflexivity).
    injection H as <-. unfold irreg_xcoords, irreg_ycoords. cbn [i_xy].
    destruct (getitem2 b0 n k xyflat SAll (SRange 0 1)) as (xs & E1 & L1 & G1).
    destruct (getitem2 b0 n k xyflat SAll (SRange 1 2)) as (ys & E2 & L2 & G2).
    assert (S0 : slice_indices (SRange 0 1) k = [0]) by (apply (slice_one 0 k); lia).
    assert (S1 : slice_indices (SRange 1 2) k = [1]) by (apply (slice_one 1 k); lia).
    rewrite S0 in L1, G1. rewrite S1 in L2, G2.
    rewrite slice_all, seq_length in *. cbn [length] in *.
    exists xs, ys. split; [exact E1|]. split; [exact E2|]. split; [lia|]. split; [lia|].
    intros s Hs. specialize (G1 s 0). specialize (G2 s 0). rewrite seq_nth in G1, G2 by lia.
    cbn [nth Nat.add] in G1, G2. replace (s * 1 + 0) with s in G1, G2 by lia. split.
    - rewrite G1 by lia. f_equal. lia.
    - rewrite G2 by lia. reflexivity.
  Qed.
End Reg.

(** A 2 x 2 x 3 cube with time on the middle axis: two epochs of 2 x 3 pixels. *)
Definition cube12 : ndarray nat := NdArray [2; 2; 3] (seq 100 12).
Example C48_reg_witness :
  nd_wf cube12 /\ cube12 = NdArray (stored_shape Axis1 2 2 3) (seq 100 12) /\
  exists r, reg3d_init cube12 1 = Ok r /\ reg_shape r = Ok (6, 2) /\
    reg_get_time_slice 0 r 1 = Ok [103; 104; 105; 109; 110; 111] /\
    reg_get_spatial_slice 0 r 4 = Ok [107; 110] /\
    length (reg_xcoords r) = 12.
Proof. split; [reflexivity|]. split; [reflexivity|]. eexists. repeat split. Qed.

(** Times 0, 1, 2 of a 3 x 1 x 2 cube: -2 and -3 count from the end, -1 and 5 give
    nothing. *)
Example C48_negative_time_witness :
  let r := Reg3D (NdArray [3; 1; 2] [10; 11; 20; 21; 30; 31]) 0 in
  map (reg_get_time_slice 0 r) [-2; -3; -1; 2; 5]%Z = [Ok [20; 21]; Ok [10; 11]; Ok []; Ok [30; 31]; Ok []].
Proof. reflexivity. Qed.
Example C48_irreg_witness :
  exists r, irreg3d_init (NdArray [2; 3] (seq 10 6)) (NdArray [3; 2] [0; 0; 0; 1; 5; 2]) 0 = Ok r /\
    irreg_get_time_slice 0 r 1 = Ok [13; 14; 15] /\ irreg_get_spatial_slice 0 r 2 = Ok [12; 15] /\
    irreg_ycoords 0 r = Ok [0; 1; 2].
Proof. eexists. repeat split. Qed.

Print Assumptions C48_reg_init.
Print Assumptions C48_reg.
Print Assumptions C48_reg_consistent.
Print Assumptions C48_reg_enumerates.
Print Assumptions C48_reg_out_of_range.
Print Assumptions C48_reg_negative_time.
Print Assumptions C48_negative_axis_refuted.
Print Assumptions C48_irreg_init.
Print Assumptions C48_irreg.
Print Assumptions C49_coords_partial.
Print Assumptions C49_length_iff.
Print Assumptions C49_coords_refuted.
Print Assumptions C49_irreg.
