(** Rounding and the merged band. *)
From Verif Require Import Base BaseLemmas PoolProofs TileModel OverlapModel OverlapSpec DirichletModel MergeModel MergeSpec
  BulkProofs DirichletProofs TileStateProofs AdjustProofs BandProofs PhaseProofs FloatMcfSpec FloatMcfRound FloatPhaseProofs
  FloatMergeModel FloatMergeSpec FloatMergeProofs.
From Coq Require Import List ZifyBool Lqa Permutation.
Import ListNotations.
Set Default Goal Selector "!".
Local Open Scope Q_scope.
Local Notation phase_of := OverlapSpec.phase_of.

Lemma point_dec (x y : Z * Z) : {x = y} + {x <> y}.
Proof. decide equality; apply Z.eq_dec. Qed.

Lemma filter_map {A B} (P : B -> bool) (g : A -> B) l : filter P (map g l) = map g (filter (fun x => P (g x)) l).
Proof. induction l as [|a l IH]; cbn; [auto|]. rewrite IH. now destruct (P (g a)). Qed.

(** ** All passes *)
Lemma drift_mono K h m w : 1 <= K -> 0 <= h -> 0 <= w -> forall n, (n <= m)%nat -> w <= drift K h n w <= drift K h m w.
Proof.
  intros HK Hh Hw. assert (forall n, 0 <= drift K h n w /\ w <= drift K h n w /\ drift K h n w <= drift K h (S n) w) as Step.
  { induction n as [|n (A & A' & IH)]; cbn [drift] in *.
    - split; [auto|]. split; [lra|]. nra.
    - set (d := drift K h n w) in *. clearbody d. assert (0 <= (1 + 2 * K) * d + 8 * K * h) by nra. split; [auto|]. split; nra. }
  intros n L. split; [apply Step|]. induction L as [|m L IH]; [lra|]. destruct (Step m) as (_ & _ & S). lra.
Qed.

Section Run.
Context (fl : Q -> Q) (u : Q) (Hl : rounding fl u).
Context (solve : list (Z * Z) -> list bool -> list Q -> res (list Q)) (K : Q) (HK : 1 <= K) (Hs : amplifies K solve).
Context (files : list tile_file) (f : overlap_file) (N : nat) (R : Q) (G : Z * Z -> Q).
Hypothesis Hrec : recorded_files f files.
Hypothesis Hnd : forall g, In g files -> NoDup (file_coords g).
Hypothesis HN : overlap_at_most N files.
Hypothesis HG : forall g x, In g files -> In x (file_coords g) -> - R <= G x <= R.
Let B := R + 10 * K.
Let h := eta u B N.
Hypothesis Hun : inject_Z (Z.of_nat N) * u <= 1 # 100.
Hypothesis HR : 0 <= R.
Hypothesis Hh : h <= 1 # 10.

Lemma h_pos : 0 <= h.
Proof using Hl HK HR. destruct (eta_pos fl u Hl B N) as (_ & _ & _ & _ & H); [unfold B; lra|exact H]. Qed.

Lemma adjust_near omap w ts ts' : forall l m, overlap_map f = Ok omap -> 0 <= w ->
  drift K h (m + length l) w <= 1 -> close_to files R G (drift K h m w) ts ->
  fold_res (adjust_pass_fl fl solve f omap) ts l = Ok ts' -> close_to files R G (drift K h (m + length l) w) ts'.
Proof using All.
  intros l. revert ts. induction l as [|d l IH]; intros ts m Em Hw Hd Hc E; cbn [fold_res length] in *.
  - injection E as <-. now rewrite Nat.add_0_r.
  - destruct (adjust_pass_fl fl solve f omap ts d) as [ts1|] eqn:E1; [|discriminate E]. cbn [bind] in E.
    rewrite Nat.add_succ_r in *. apply (IH ts1 (S m)); auto. cbn [drift].
    pose proof (drift_mono K h (S (m + length l)) w HK h_pos Hw m ltac:(lia)) as D.
    eapply (adjust_pass_near fl u Hl solve K HK Hs files f N R G); eauto. lra.
Qed.

End Run.

(** ** The model *)
Section Model.
Context (fl : Q -> Q) (u : Q) (Hl : rounding fl u) (B : Q) (N : nat).
Hypothesis Hun : inject_Z (Z.of_nat N) * u <= 1 # 100.
Hypothesis HB : 0 <= B.
Let h := eta u B N.
(** The phases at [x] are within [d] of [c]. *)
Context (x : Z * Z) (c d : Q) (H1 : - B <= c - d) (H2 : c + d <= B).
Local Notation holds := (fun t => existsb (point_eqb x) (ft_coords t)).

Definition good_tile (t : ftile) : Prop := NoDup (ft_coords t) /\ length (phase_fl fl t) = ft_npoints t /\
  forall p, nth_error (ft_coords t) p = Some x -> - d <= nth p (phase_fl fl t) 0 - c <= d.

Definition sum_ok (a : image Q * image nat) : Prop :=
  let q := inject_Z (Z.of_nat (snd a x)) in - (q * (d + h)) <= fst a x - q * c <= q * (d + h).

Lemma accumulate_near t a : good_tile t -> sum_ok a -> (snd a x + (if holds t then 1 else 0) <= N)%nat ->
  sum_ok (accumulate_fl fl a t) /\ snd (accumulate_fl fl a t) x = (snd a x + if holds t then 1 else 0)%nat.
Proof using Hl HB Hun H1 H2.
  intros (Nd & Lp & Hp) A L. unfold sum_ok in *.
  destruct (existsb (point_eqb x) (ft_coords t)) eqn:E.
  - apply existsb_exists in E as (y & I & E). apply point_eqb_spec in E as <-.
    apply In_nth_error in I as (p & P).
    assert (p < ft_npoints t)%nat as Bp by (unfold ft_npoints; apply nth_error_Some; congruence).
    assert (fst (accumulate_fl fl a t) x = fl (fst a x + nth p (phase_fl fl t) 0)) as ->.
    { unfold accumulate_fl. cbn [fst]. 
      rewrite (scatter_in _ _ _ _ p 0 Nd) by (auto; rewrite map_length, combine_length; unfold ft_npoints in *; lia).
      rewrite (nth_map_combine _ _ _ p x (nth p (phase_fl fl t) 0)); auto. apply nth_error_nth'. lia. }
    assert (snd (accumulate_fl fl a t) x = S (snd a x)) as ->.
    { unfold accumulate_fl. cbn [snd]. rewrite (scatter_in _ _ _ _ p O Nd) by (auto; now rewrite map_length).
      rewrite (map_nth' _ _ _ x) by (unfold ft_npoints in Bp; exact Bp). now rewrite (nth_error_nth _ _ x P). }
    split; [|lia]. apply (sum_step fl u Hl B N Hun HB); auto. lia.
  - assert (~ In x (ft_coords t)) as Ni.
    { intros I. enough (existsb (point_eqb x) (ft_coords t) = true) by congruence. apply existsb_exists. exists x. split; [auto|apply point_eqb_refl]. }
    unfold accumulate_fl. cbn [fst snd]. rewrite !scatter_out by exact Ni. split; [exact A|lia].
Qed.

Lemma accumulated_near ts : (forall t, In t ts -> good_tile t) ->
  forall a, sum_ok a -> (snd a x + length (filter holds ts) <= N)%nat ->
  sum_ok (fold_left (accumulate_fl fl) ts a) /\
  snd (fold_left (accumulate_fl fl) ts a) x = (snd a x + length (filter holds ts))%nat.
Proof using Hl HB Hun H1 H2.
  induction ts as [|t ts IH]; intros H a A L; cbn [fold_left filter] in *.
  - split; [exact A|]. cbn [length]. lia.
  - destruct (accumulate_near t a) as [A1 A2]; [apply H; now left|exact A|destruct (existsb _ _); cbn [length] in L; lia|].
    destruct (IH (fun t I => H t (or_intror I)) _ A1) as [B1 B2]; [rewrite A2; destruct (existsb _ _); cbn [length] in L; lia|].
    split; [exact B1|]. rewrite B2, A2. destruct (existsb _ (ft_coords t)); cbn [length]; lia.
Qed.

Lemma model_near ts : (length (filter holds ts) <= N)%nat -> (forall t, In t ts -> good_tile t) ->
  (exists t, In t ts /\ In x (ft_coords t)) ->
  exists m, model_fl fl ts x = Some m /\ - (d + 2 * h) <= m - c <= d + 2 * h.
Proof using Hl HB Hun H1 H2.
  intros Hn H (t & It & Ix). destruct (accumulated_near ts H (fun _ => 0, fun _ => O)) as [A1 A2].
  { unfold sum_ok. cbn [fst snd]. change (inject_Z (Z.of_nat 0)) with 0. lra. }
  { exact Hn. }
  unfold model_fl. set (a := fold_left _ _ _) in *. cbn [snd] in A2. unfold sum_ok in A1.
  assert (In t (filter holds ts)) as If.
  { apply filter_In. split; [auto|]. apply existsb_exists. exists x. split; [auto|apply point_eqb_refl]. }
  assert (0 < snd a x)%nat as P by (rewrite A2; destruct (filter _ ts); [destruct If|cbn [length]; lia]).
  destruct (snd a x) as [|k] eqn:Ek; [lia|]. eexists. split; [reflexivity|].
  apply (avg_near fl u Hl B N Hun HB); auto. lia.
Qed.
End Model.

(** ** Writing the tiles *)
Lemma written (g : Z * Z -> Q -> option Q) ts x (arr : image (option Q)) :
  (forall t, In t ts -> NoDup (ft_coords t) /\ length (ft_raw t) = ft_npoints t) ->
  let r := fold_left (fun arr t => scatter arr (ft_coords t) (map (fun pr => g (fst pr) (snd pr)) (combine (ft_coords t) (ft_raw t)))) ts arr in
  ((forall t, In t ts -> ~ In x (ft_coords t)) /\ r x = arr x) \/
  (exists j t p, nth_error ts j = Some t /\ nth_error (ft_coords t) p = Some x /\
     (forall j' t', (j < j')%nat -> nth_error ts j' = Some t' -> ~ In x (ft_coords t')) /\ r x = g x (nth p (ft_raw t) 0)).
Proof.
  induction ts as [|t ts IH] using rev_ind; intros H; cbv zeta.
  - left. split; [intros t []|reflexivity].
  - rewrite fold_left_app. cbn [fold_left]. set (r := fold_left _ ts arr) in *.
    destruct (H t) as [Nd L]; [apply in_app_iff; right; now left|].
    destruct (in_dec point_dec x (ft_coords t)) as [I|I].
    + right. apply In_nth_error in I as (p & P). exists (length ts), t, p.
      split; [rewrite nth_error_app2, Nat.sub_diag by lia; reflexivity|]. split; [auto|]. split.
      * intros j' t' Hj E. assert (j' < length (ts ++ [t]))%nat as B by (apply nth_error_Some; congruence).
        rewrite app_length in B. cbn [length] in B. lia.
      * assert (p < ft_npoints t)%nat as Bp by (unfold ft_npoints; apply nth_error_Some; congruence).
        rewrite (scatter_in _ _ _ _ p None Nd) by (auto; rewrite map_length, combine_length; unfold ft_npoints in *; lia).
        rewrite (nth_map_combine _ _ _ p x (nth p (ft_raw t) 0)); auto. apply nth_error_nth'. lia.
    + rewrite scatter_out by exact I.
      destruct (IH (fun t I => H t (proj2 (in_app_iff _ _ _) (or_introl I)))) as [[A E]|(j & t1 & p & E1 & E2 & E3 & E4)].
      * left. split; [|exact E]. intros t' It'. apply in_app_iff in It' as [It'|[<-|[]]]; auto.
      * right. exists j, t1, p. assert (j < length ts)%nat as Bj by (apply nth_error_Some; congruence).
        split; [now rewrite nth_error_app1|]. split; [auto|]. split; [|exact E4].
        intros j' t' Hj E'. destruct (Nat.lt_ge_cases j' (length ts)) as [B|B].
        -- rewrite nth_error_app1 in E' by exact B. eauto.
        -- rewrite nth_error_app2 in E' by exact B. destruct (j' - length ts)%nat as [|k] eqn:Ek; cbn in E'; [injection E' as <-; exact I|destruct k; discriminate].
Qed.

(** ** The tiles at the start *)
Section Start.
Context (fl fd : Q -> Q) (u v : Q) (Hl : rounding fl u) (Hd : rounding fd v) (Hu : u <= 1 # 1000) (Hvu : v <= u).
Context (files : list tile_file) (R : Q) (G : Z * Z -> Q) (beta : nat -> Z) (bands b : nat) (bulk : list (list Q)) (e : Q).
Hypothesis He : 0 <= e <= 1.
Hypothesis HR : 0 <= R.
Hypothesis HuR : u * R <= 1 # 100.
Hypothesis Hb : (b < bands)%nat.
Hypothesis Htb : forall g, In g files -> tile_bands bands g.
Hypothesis Hph : phases_within R bands files.
Hypothesis HG : forall g x, In g files -> In x (file_coords g) -> - R <= G x <= R.
Hypothesis Hsh : shows e b G beta files.
Hypothesis Hbulk : forall j, (j < length files)%nat -> nth j (nth b bulk []) 0 == inject_Z (beta j).

Lemma start_raw g p : In g files -> 
  - R <= nth p (map (fun x => x + nth b (tf_offset g) 0) (nth b (tf_uw g) [])) 0 <= R.
Proof using Hb Htb Hph HR.
  intros Ig. destruct (Htb g Ig) as (L1 & L2 & L3). assert (In (nth b (tf_uw g) []) (tf_uw g)) as Ir by (apply nth_In; lia).
  destruct (Nat.lt_ge_cases p (length (tf_points g))) as [B|B].
  - rewrite (map_nth' _ _ _ 0) by (rewrite (L3 _ Ir); exact B). pose proof (Hph g b p Ig Hb B) as H. unfold phase_of in H.
    apply Qabs_Qle_condition in H. exact H.
  - rewrite nth_overflow by (rewrite map_length, (L3 _ Ir); exact B). lra.
Qed.

Lemma start_tile_near g j t : nth_error files j = Some g -> start_tile_fl fl fd g j bulk b = Ok t ->
  ft_file t = g /\ length (ft_raw t) = ft_npoints t /\ length (ft_corr t) = ft_npoints t /\
  (forall p, (p < ft_npoints t)%nat -> - (u * R) <= nth p (ft_raw t) 0 - phase_of g b p <= u * R) /\
  (forall p, - (R + 1) <= nth p (ft_raw t) 0 <= R + 1) /\
  forall x p, nth_error (ft_coords t) p = Some x ->
    - (e + 6 * u * (R + 1)) <= nth p (ft_raw t) 0 + nth p (ft_corr t) 0 - G x <= e + 6 * u * (R + 1).
Proof using All.
  intros Eg E. assert (In g files) as Ig by (eapply nth_error_In; eauto). destruct (Htb g Ig) as (L1 & L2 & L3).
  assert (In (nth b (tf_uw g) []) (tf_uw g)) as Ir by (apply nth_In; lia). pose proof (L3 _ Ir) as L4.
  unfold start_tile_fl in E. destruct (negb _) in E; [discriminate E|]. destruct (negb _) in E; [discriminate E|].
  injection E as <-. unfold ft_npoints, ft_coords. cbn [ft_file ft_raw ft_corr]. split; [auto|].
  assert (length (file_coords g) = length (tf_points g)) as Lc by (unfold file_coords; apply map_length).
  rewrite map_length, repeat_length. split; [lia|]. split; [lia|].
  pose proof (rd_nonneg fl u Hl) as Hu0. pose proof (rd_nonneg fd v Hd) as Hv0.
  assert (forall p, (p < length (tf_points g))%nat ->
    nth p (map (fun x => fl (x + nth b (tf_offset g) 0)) (nth b (tf_uw g) [])) 0 = fl (phase_of g b p)) as N1.
  { intros p Bp. now rewrite (map_nth' _ _ _ 0) by lia. }
  assert (forall p, (p < length (tf_points g))%nat -> - R <= phase_of g b p <= R /\ - (u * R) <= fl (phase_of g b p) - phase_of g b p <= u * R) as N2.
  { intros p Bp. pose proof (Hph g b p Ig Hb Bp) as H. apply Qabs_Qle_condition in H. split; [exact H|]. now apply (rd_bound fl u Hl). }
  split; [|split].
  - intros p Bp. rewrite Lc in Bp. rewrite N1 by exact Bp. now apply N2.
  - intros p. destruct (Nat.lt_ge_cases p (length (tf_points g))) as [Bp|Bp].
    + rewrite N1 by exact Bp. destruct (N2 p Bp). lra.
    + rewrite nth_overflow by (rewrite map_length; lia). lra.
  - intros x p Ex. assert (p < length (tf_points g))%nat as Bp by (rewrite <- Lc; apply nth_error_Some; congruence).
    rewrite N1 by exact Bp. rewrite nth_repeat_lt by exact Bp.
    destruct (N2 p Bp) as [A1 A2]. pose proof (Hsh j g x p Eg Ex) as S. apply Qabs_Qle_condition in S.
    assert (j < length files)%nat as Bj by (apply nth_error_Some; congruence). pose proof (Hbulk j Bj) as Eb.
    pose proof (HG g x Ig ltac:(eapply nth_error_In; eauto)) as A3.
    set (q := nth j (nth b bulk []) 0) in *. set (k := inject_Z (beta j)) in *. clearbody q k.
    assert (twopi * q == twopi * k) as Eq by (rewrite Eb; reflexivity). set (z := twopi * q) in *. set (z' := twopi * k) in *. clearbody z z'.
    assert (- (2 * R + 1) <= - z <= 2 * R + 1) as Bz by lra.
    pose proof (rd_bound fd v Hd _ _ Bz) as E1. set (a := fd (- z)) in *. clearbody a.
    assert (v * (2 * R + 1) <= u * (2 * R + 1)) as X1 by nra. assert (u * (2 * R + 1) == 2 * (u * R) + u) as X2 by ring.
    assert (- (2 * R + 2) <= a <= 2 * R + 2) as Ba by lra.
    pose proof (rd_bound fl u Hl _ _ Ba) as E2. assert (u * (2 * R + 2) == 2 * (u * R) + 2 * u) as X3 by ring.
    assert (6 * u * (R + 1) == 6 * (u * R) + 6 * u) as X4 by ring. assert (0 <= u * R) as X5 by nra.
    set (c := fl a) in *. set (r := fl (phase_of g b p)) in *. clearbody c r. lra.
Qed.

Lemma start_near ts : start_tiles_fl fl fd files bulk b = Ok ts ->
  close_to files R G (e + 6 * u * (R + 1)) ts /\
  forall j g t x p, nth_error files j = Some g -> nth_error ts j = Some t -> nth_error (ft_coords t) p = Some x ->
    - (u * R) <= nth p (ft_raw t) 0 - phase_of g b p <= u * R.
Proof using All.
  unfold start_tiles_fl. intros E. apply map_res_nth in E as [L E].
  assert (length ts = length files) as Lts by (rewrite combine_length, seq_length in L; lia).
  assert (forall j g t, nth_error files j = Some g -> nth_error ts j = Some t -> start_tile_fl fl fd g j bulk b = Ok t) as E'.
  { intros j g t Eg Et. assert (j < length files)%nat as Bj by (apply nth_error_Some; congruence).
    specialize (E j (O, g) t). rewrite combine_nth in E by apply seq_length. rewrite seq_nth in E by exact Bj.
    rewrite (nth_error_nth _ _ g Eg), (nth_error_nth _ _ t Et) in E. apply E. lia. }
  assert (forall t, In t ts -> exists j g, nth_error files j = Some g /\ nth_error ts j = Some t) as I.
  { intros t It. apply In_nth_error in It as (j & Et). assert (j < length files)%nat as Bj by (rewrite <- Lts; apply nth_error_Some; congruence).
    apply nth_error_Some in Bj. destruct (nth_error files j) as [g|] eqn:Eg; [|easy]. exists j, g. auto. }
  split; [constructor|].
  - apply nth_error_ext_list. intros j. rewrite nth_error_map. destruct (nth_error ts j) as [t|] eqn:Et; cbn [option_map].
    + destruct (nth_error files j) as [g|] eqn:Eg.
      * now destruct (start_tile_near g j t Eg (E' j g t Eg Et)) as (-> & _).
      * apply nth_error_None in Eg. assert (j < length ts)%nat by (apply nth_error_Some; congruence). lia.
    + apply nth_error_None in Et. symmetry. apply nth_error_None. lia.
  - intros t It. destruct (I t It) as (j & g & Eg & Et). destruct (start_tile_near g j t Eg (E' j g t Eg Et)) as (_ & A & B & _). auto.
  - intros t p It. destruct (I t It) as (j & g & Eg & Et). destruct (start_tile_near g j t Eg (E' j g t Eg Et)) as (_ & _ & _ & _ & B & _). auto.
  - intros t x p It. destruct (I t It) as (j & g & Eg & Et). destruct (start_tile_near g j t Eg (E' j g t Eg Et)) as (_ & _ & _ & _ & _ & B). auto.
  - intros j g t x p Eg Et Ex. destruct (start_tile_near g j t Eg (E' j g t Eg Et)) as (F & L1 & _ & A & _).
    apply A. unfold ft_npoints. apply nth_error_Some. congruence.
Qed.
End Start.

(** ** The band *)
Lemma adjust_raw fl solve f omap l : forall ts ts', fold_res (adjust_pass_fl fl solve f omap) ts l = Ok ts' ->
  map ft_raw ts' = map ft_raw ts.
Proof.
  induction l as [|d l IH]; intros ts ts' E; cbn [fold_res] in E; [now injection E as <-|].
  destruct (adjust_pass_fl fl solve f omap ts d) as [ts1|] eqn:E1; [|discriminate E]. cbn [bind] in E.
  rewrite (IH _ _ E). unfold adjust_pass_fl in E1. apply map_res_nth in E1 as [L E1]. rewrite seq_length in L.
  apply nth_error_ext_list. intros i. rewrite !nth_error_map. destruct (nth_error ts i) as [t|] eqn:Et.
  - assert (i < length ts)%nat as B by (apply nth_error_Some; congruence).
    specialize (E1 i O t). rewrite seq_length, seq_nth, Nat.add_0_l in E1 by exact B. specialize (E1 B).
    rewrite (nth_error_nth' ts1 t) by lia. cbn [option_map]. f_equal. unfold adjust_tile_fl in E1. rewrite Et in E1.
    destruct (nth_error omap i); [|discriminate E1]. destruct (fold_res _ _ _) as [[c s]|]; [|discriminate E1]. cbn [bind] in E1.
    destruct (negb _) in E1; [now injection E1 as <-|]. destruct (dirichlet_fl _ _ _ _ _); [|discriminate E1]. now injection E1 as <-.
  - assert (nth_error ts1 i = None) as -> by (apply nth_error_None in Et; apply nth_error_None; lia). reflexivity.
Qed.

Lemma merged_pixel fl ts sh r x : merged_band_fl fl ts sh = Ok r -> in_shape sh x = true ->
  (forall t, In t ts -> NoDup (ft_coords t) /\ length (ft_raw t) = ft_npoints t) ->
  ((forall t, In t ts -> ~ In x (ft_coords t)) /\ pixel r x = None) \/
  (exists j t p, nth_error ts j = Some t /\ nth_error (ft_coords t) p = Some x /\
     (forall j' t', (j < j')%nat -> nth_error ts j' = Some t' -> ~ In x (ft_coords t')) /\
     pixel r x = option_map (fun m => wrap_around_fl fl m (nth p (ft_raw t) 0)) (model_fl fl ts x)).
Proof.
  unfold merged_band_fl. destruct (negb _); [discriminate|]. intros E Hx H. injection E as <-. rewrite tabulate_pixel by exact Hx.
  exact (written (fun y raw => option_map (fun m => wrap_around_fl fl m raw) (model_fl fl ts y)) ts x (fun _ => None) H).
Qed.

Lemma off_free mask : forall xf : list Q, length xf = length mask -> length (sel (off mask) xf) = length (filter negb mask).
Proof. induction mask as [|[] mask IH]; intros [|x xf] L; cbn in *; try lia; auto; rewrite IH; lia. Qed.

Lemma start_ok fl fd files bulk b bands : (b < bands)%nat -> (forall g, In g files -> tile_bands bands g) ->
  (b < length bulk)%nat -> (length files <= length (nth b bulk []))%nat -> exists ts, start_tiles_fl fl fd files bulk b = Ok ts.
Proof.
  intros Hb Ht L1 L2. unfold start_tiles_fl. apply map_res_total. intros [j g] I. cbn [fst snd].
  pose proof (in_combine_l _ _ _ _ I) as Ij. apply in_seq in Ij. pose proof (in_combine_r _ _ _ _ I) as Ig.
  destruct (Ht g Ig) as (A & B & _). unfold start_tile_fl.
  replace ((b <? length (tf_uw g)) && (b <? length (tf_offset g)))%nat with true by lia.
  replace ((b <? length bulk) && (j <? length (nth b bulk [])))%nat with true by lia. cbn [negb]. eauto.
Qed.

Section Total.
Context (fl : Q -> Q) (u : Q) (Hl : rounding fl u).
Context (solve : list (Z * Z) -> list bool -> list Q -> res (list Q)) (K : Q) (HK : 1 <= K) (Hs : amplifies K solve).
Hypothesis Ha : answers solve.
Context (files : list tile_file) (f : overlap_file) (N : nat) (R : Q) (G : Z * Z -> Q).
Hypothesis Hrec : recorded_files f files.
Hypothesis Hnd : forall g, In g files -> NoDup (file_coords g).
Hypothesis HN : overlap_at_most N files.
Hypothesis HG : forall g x, In g files -> In x (file_coords g) -> - R <= G x <= R.
Let B := R + 10 * K.
Let h := eta u B N.
Hypothesis Hun : inject_Z (Z.of_nat N) * u <= 1 # 100.
Hypothesis HR : 0 <= R.
Hypothesis Hh : h <= 1 # 10.

Lemma adjust_tile_ok omap w ts degree ii : overlap_map f = Ok omap -> 0 <= w <= 1 -> close_to files R G w ts -> (ii < length ts)%nat ->
  exists t', adjust_tile_fl fl solve f omap degree ts ii = Ok t'.
Proof using All.
  intros Em Hw Hc Bi. pose proof (Hrec (map shell files) (shells_file files)) as Hr.
  unfold adjust_tile_fl. destruct (nth_error ts ii) as [ti|] eqn:Ei; [|apply nth_error_None in Ei; lia].
  assert (length ts = length files) as Lt by (rewrite <- (ct_files _ _ _ _ _ Hc); symmetry; apply map_length).
  pose proof (overlap_map_ok f _ Hr) as Em'. rewrite Em in Em'. injection Em' as ->. rewrite map_length, nth_error_map.
  rewrite (nth_error_nth' (seq 0 (length files)) O) by (rewrite seq_length; lia). rewrite seq_nth by lia. cbn [option_map Nat.add].
  destruct (gathered_near fl u Hl solve K HK Hs files f N R G Hrec Hnd HN HG Hun Hh w ts Hw Hc ii ti Ei) as ([c s] & -> & L1 & L2 & _).
  cbn [bind fst snd] in *. destruct (negb (existsb _ _)) eqn:Eb; [eauto|]. destruct (ct_raw _ _ _ _ _ Hc ti (nth_error_In _ _ Ei)) as [L3 L4].
  destruct (phase_len fl ti L3 L4) as [L5 _]. unfold dirichlet_fl. 
  set (xf := map _ (combine _ (phase_fl fl ti))). assert (length xf = ft_npoints ti) as Lx.
  { unfold xf. rewrite map_length, combine_length, map_length, combine_length. lia. }
  destruct (Ha (ft_coords ti) (map (fun k => (degree <=? k)%nat) c) xf) as (x & -> & L6); [now rewrite map_length|exact Lx| |].
  { apply negb_false_iff in Eb. apply existsb_exists in Eb as ([] & I & E); [exact I|discriminate E]. }
  cbn [bind].
  rewrite off_free by (rewrite map_length; lia). rewrite L6, Nat.eqb_refl. cbn [negb bind]. eauto.
Qed.

Lemma adjust_ok omap w : forall l ts m, overlap_map f = Ok omap -> 0 <= w ->
  drift K h (m + length l) w <= 1 -> close_to files R G (drift K h m w) ts ->
  exists ts', fold_res (adjust_pass_fl fl solve f omap) ts l = Ok ts'.
Proof using All.
  intros l. induction l as [|d l IH]; intros ts m Em Hw Hd Hc; cbn [fold_res length] in *; [eauto|].
  rewrite Nat.add_succ_r in *.
  pose proof (drift_mono K h (S (m + length l)) w HK (h_pos fl u Hl K HK N R HR) Hw m ltac:(lia)) as D.
  destruct (map_res_total (adjust_tile_fl fl solve f omap d ts) (seq 0 (length ts))) as (ts1 & E1).
  { intros i I. apply in_seq in I. eapply adjust_tile_ok; eauto; [lra|lia]. }
  fold (adjust_pass_fl fl solve f omap ts d) in E1. rewrite E1. cbn [bind]. apply (IH ts1 (S m)); auto. cbn [drift].
  eapply (adjust_pass_near fl u Hl solve K HK Hs files f N R G); eauto. lra.
Qed.
End Total.

(** *** Any tiles *)
Theorem merged_congruent fl u ts sh r x c d R N : rounding fl u -> u <= 1 # 1000 ->
  merged_band_fl fl ts sh = Ok r -> in_shape sh x = true ->
  (length (filter (fun t => existsb (point_eqb x) (ft_coords t)) ts) <= N)%nat -> inject_Z (Z.of_nat N) * u <= 1 # 100 ->
  (forall t, In t ts -> NoDup (ft_coords t) /\ length (ft_raw t) = ft_npoints t /\ length (ft_corr t) = ft_npoints t) ->
  - R <= c - d -> c + d <= R ->
  (forall t p, In t ts -> nth_error (ft_coords t) p = Some x ->
     - R <= nth p (ft_raw t) 0 <= R /\ c - d <= nth p (phase_fl fl t) 0 <= c + d) ->
  forall j t p, nth_error ts j = Some t -> nth_error (ft_coords t) p = Some x ->
  (forall j' t', (j < j')%nat -> nth_error ts j' = Some t' -> ~ In x (ft_coords t')) ->
  exists v k, pixel r x = Some v /\
    - (11 * u * (R + 1)) <= v - (nth p (ft_raw t) 0 - twopi * inject_Z k) <= 11 * u * (R + 1) /\
    - (twopi * (1 # 2) + d + (30 + 4 * inject_Z (Z.of_nat N)) * u * (R + 1)) <= v - c <=
      twopi * (1 # 2) + d + (30 + 4 * inject_Z (Z.of_nat N)) * u * (R + 1).
Proof.
  intros Hl Hu E Hx HN Hun Ht H1 H2 Hp j t p Ej Ep Hlast.
  assert (In t ts) as It by (eapply nth_error_In; eauto). assert (In x (ft_coords t)) as Ix by (eapply nth_error_In; eauto).
  destruct (Hp t p It Ep) as [Br Bp]. pose proof (rd_nonneg fl u Hl) as Hu0. assert (0 <= R) as HR by lra.
  destruct (eta_pos fl u Hl R N HR) as (Hn & _ & HnuR & Ee & He0).
  destruct (model_near fl u Hl R N Hun HR x c d H1 H2 ts HN) as (m & Em & Bm).
  { intros t' It'. destruct (Ht t' It') as (A & L1 & L2). split; [exact A|]. split; [now apply phase_len|].
    intros q Eq. destruct (Hp t' q It' Eq) as [_ B']. lra. }
  { exists t. auto. }
  set (h := eta u R N) in *. assert (h <= R * (2 # 100)) as Hh by (rewrite Ee; nra). 
  set (R' := R * (104 # 100)). assert (0 <= u * R) as HuR by nra.
  destruct (wrap_near fl u Hl Hu R' m (nth p (ft_raw t) 0)) as [W1 W2]; [unfold R'; lra|unfold R'; lra|].
  destruct (merged_pixel fl ts sh r x E Hx) as [[Z _]|(j2 & t2 & p2 & Ej2 & Ep2 & Hl2 & Epx)].
  { intros t' It'. destruct (Ht t' It') as (A & L1 & L2). auto. }
  { exfalso. exact (Z t It Ix). }
  assert (j2 = j) as ->.
  { destruct (Nat.lt_trichotomy j j2) as [L|[->|L]]; [|reflexivity|].
    - exfalso. apply (Hlast j2 t2 L Ej2). eapply nth_error_In; eauto.
    - exfalso. apply (Hl2 j t L Ej). exact Ix. }
  rewrite Ej in Ej2. injection Ej2 as <-.
  assert (p2 = p) as ->.
  { destruct (Ht t It) as (A & _). apply (proj1 (NoDup_nth_error _) A); [apply nth_error_Some; congruence|congruence]. }
  rewrite Em in Epx. cbn [option_map] in Epx. eexists _, (turns fl m (nth p (ft_raw t) 0)). split; [exact Epx|].
  assert (u * R' == u * R * (104 # 100)) as X1 by (unfold R'; ring).
  assert (10 * u * (R' + 1) == u * R * (1040 # 100) + 10 * u) as X2 by (unfold R'; ring).
  assert (11 * u * (R + 1) == 11 * (u * R) + 11 * u) as X3 by ring.
  set (n := inject_Z (Z.of_nat N)) in *. assert (0 <= n * u) as Hnu by nra.
  assert ((30 + 4 * n) * u * (R + 1) == 30 * (u * R) + 30 * u + 4 * (n * u * R) + 4 * (n * u)) as X4 by ring.
  rewrite X1 in W2. rewrite X2 in W1. rewrite X3, X4. set (k := twopi * inject_Z _) in *. clearbody k. split; lra.
Qed.

(** *** Tiles that show one field *)
Section Aligned.
Context (fl fd : Q -> Q) (u v : Q) (Hl : rounding fl u) (Hd : rounding fd v) (Hu : u <= 1 # 1000) (Hvu : v <= u).
Context (solve : list (Z * Z) -> list bool -> list Q -> res (list Q)) (K : Q) (HK : 1 <= K) (Hs : amplifies K solve).
Context (files : list tile_file) (f : overlap_file) (N : nat) (R : Q) (G : Z * Z -> Q).
Context (beta : nat -> Z) (bands b : nat) (bulk : list (list Q)) (e : Q).
Hypothesis Hrec : recorded_files f files.
Hypothesis Hnd : forall g, In g files -> NoDup (file_coords g).
Hypothesis HN : overlap_at_most N files.
Hypothesis HG : forall g x, In g files -> In x (file_coords g) -> - R <= G x <= R.
Hypothesis He : 0 <= e <= 1.
Hypothesis HR : 0 <= R.
Hypothesis Hb : (b < bands)%nat.
Hypothesis Htb : forall g, In g files -> tile_bands bands g.
Hypothesis Hph : phases_within R bands files.
Hypothesis Hsh : shows e b G beta files.
Hypothesis Hbulk : forall j, (j < length files)%nat -> nth j (nth b bulk []) 0 == inject_Z (beta j).
Let h := eta u (R + 10 * K) N.
Hypothesis Hun : inject_Z (Z.of_nat N) * u <= 1 # 100.
Hypothesis HuR : u * (R + 2) <= 1 # 100.
Hypothesis Hh : h <= 1 # 10.
Context (max_degree : nat) (Hdr : drift K h (length (degrees max_degree)) (e + 6 * u * (R + 1)) <= 1).

Theorem merged_aligned omap sh r x : overlap_map f = Ok omap -> in_shape sh x = true ->
  merge_band_fl fl fd solve f omap max_degree bulk sh files b = Ok r ->
  ((forall g, In g files -> ~ In x (file_coords g)) /\ pixel r x = None) \/
  exists j g p y, nth_error files j = Some g /\ file_point g x p /\
    (forall j' g', (j < j')%nat -> nth_error files j' = Some g' -> ~ In x (file_coords g')) /\
    pixel r x = Some y /\ 
    - (11 * u * (R + 3)) <= y - (phase_of g b p - twopi * inject_Z (beta j)) <= 11 * u * (R + 3) /\
    - (e + 11 * u * (R + 3)) <= y - G x <= e + 11 * u * (R + 3).
Proof using All.
  intros Em Hx E. unfold merge_band_fl in E. destruct (start_tiles_fl fl fd files bulk b) as [ts0|] eqn:E0; [|discriminate E]. cbn [bind] in E.
  destruct (adjust_tiles_fl fl solve f omap max_degree ts0) as [ts|] eqn:E1; [|discriminate E]. cbn [bind] in E.
  pose proof (rd_nonneg fl u Hl) as Hu0. assert (0 <= u * R) as HuR0 by nra.
  assert (u * (R + 2) == u * R + 2 * u) as X0 by ring. assert (u * R <= 1 # 100) as HuR1 by lra.
  destruct (start_near fl fd u v Hl Hd Hu Hvu files R G beta bands b bulk e He HR HuR1 Hb Htb Hph HG Hsh Hbulk ts0 E0) as [C0 Raw0].
  set (w0 := e + 6 * u * (R + 1)) in *. assert (0 <= w0) as Hw0 by (unfold w0; nra).
  unfold adjust_tiles_fl in E1. pose proof (adjust_raw _ _ _ _ _ _ _ E1) as Er.
  pose proof (adjust_near fl u Hl solve K HK Hs files f N R G Hrec Hnd HN HG Hun HR Hh omap w0 ts0 ts (degrees max_degree) 0 Em Hw0 Hdr C0 E1) as C.
  cbn [Nat.add] in C. fold h in C. set (w := drift K h (length (degrees max_degree)) w0) in *.
  assert (0 <= w) as Hw.
  { assert (0 <= h) as Hh0 by (destruct (eta_pos fl u Hl (R + 10 * K) N) as (_ & _ & _ & _ & H); [lra|exact H]).
    pose proof (drift_mono K h (length (degrees max_degree)) w0 HK Hh0 Hw0 _ (Nat.le_refl _)) as D. fold w in D. lra. }
  destruct C as [Cf Cr Cb Cn].
  assert (forall t, In t ts -> In (ft_file t) files) as If by (intros t It; rewrite <- Cf; now apply in_map).
  assert (forall j t, nth_error ts j = Some t -> nth_error files j = Some (ft_file t)) as Inth by (intros j t Ej; rewrite <- Cf, nth_error_map, Ej; reflexivity).
  assert (forall j g, nth_error files j = Some g -> exists t, nth_error ts j = Some t /\ ft_file t = g) as Inth'.
  { intros j g Ej. rewrite <- Cf, nth_error_map in Ej. destruct (nth_error ts j) as [t|]; [|discriminate]. injection Ej as <-. eauto. }
  destruct (merged_pixel fl ts sh r x E Hx) as [[Z Ep]|(j & t & p & Ej & Ep & Hl2 & Epx)].
  { intros t It. split; [apply (Hnd _ (If t It))|now apply Cr]. }
  { left. split; [|exact Ep]. intros g Ig. apply In_nth_error in Ig as (j & Ej). destruct (Inth' j g Ej) as (t & Et & <-).
    apply Z. eapply nth_error_In; eauto. }
  right. exists j, (ft_file t), p. assert (In t ts) as It by (eapply nth_error_In; eauto).
  assert (In x (ft_coords t)) as Ix by (eapply nth_error_In; eauto).
  pose proof (HG _ _ (If t It) Ix) as BG.
  assert (0 <= h) as Hh0 by (destruct (eta_pos fl u Hl (R + 10 * K) N) as (_ & _ & _ & _ & H); [lra|exact H]).
  destruct (model_near fl u Hl (R + 10 * K) N Hun ltac:(lra) x (G x) (w + h) ltac:(lra) ltac:(lra) ts) as (m & Em' & Bm).
  { specialize (HN x). rewrite <- Cf in HN. rewrite filter_map, map_length in HN. exact HN. }
  { intros t' It'. destruct (Cr t' It') as [L1 L2]. split; [apply (Hnd _ (If t' It'))|]. split; [now apply phase_len|]. intros q Eq.
    apply (phase_near fl u Hl K HK files N R G HN HG Hh w ts (conj Hw Hdr) (Build_close_to _ _ _ _ _ Cf Cr Cb Cn) t' x q It' (If t' It') Eq). }
  { exists t. auto. }
  fold h in Bm. rewrite Em' in Epx. cbn [option_map] in Epx.
  assert (- (u * R) <= nth p (ft_raw t) 0 - phase_of (ft_file t) b p <= u * R) as Rw.
  { assert (nth_error (map ft_raw ts) j = Some (ft_raw t)) as Q by now rewrite nth_error_map, Ej.
    rewrite Er, nth_error_map in Q. destruct (nth_error ts0 j) as [t0|] eqn:Et0; [|discriminate Q]. injection Q as Q. rewrite <- Q.
    apply (Raw0 j (ft_file t) t0 x p (Inth j t Ej) Et0). 
    assert (nth_error files j = Some (ft_file t0)) as F0 by (rewrite <- (ct_files _ _ _ _ _ C0), nth_error_map, Et0; reflexivity).
    rewrite (Inth j t Ej) in F0. injection F0 as F0. unfold ft_coords in *. now rewrite <- F0. }
  pose proof (Hsh j (ft_file t) x p (Inth j t Ej) Ep) as S. apply Qabs_Qle_condition in S.
  set (raw := nth p (ft_raw t) 0) in *. set (ph := phase_of (ft_file t) b p) in *.
  assert (- (R + 2) <= raw <= R + 2) as Braw by (pose proof (Cb t p It) as Q; fold raw in Q; lra).
  assert (- (R + 2) <= m <= R + 2) as Bm' by lra.
  destruct (wrap_near fl u Hl Hu (R + 2) m raw Bm' Braw) as [W1 _].
  rewrite (turns_eq fl u Hl Hu (R + 2) m raw (beta j) Bm' Braw HuR) in W1 by lra.
  eexists. split; [now apply Inth|]. split; [exact Ep|]. split.
  { intros j' g' L Eg. destruct (Inth' j' g' Eg) as (t' & Et' & <-). now apply (Hl2 j' t' L). }
  split; [exact Epx|]. set (y := wrap_around_fl _ _ _) in *. clearbody y ph raw.
  assert (10 * u * (R + 2 + 1) == 10 * (u * R) + 30 * u) as X1 by ring.
  assert (11 * u * (R + 3) == 11 * (u * R) + 33 * u) as X2 by ring.
  rewrite X1 in W1. rewrite X2. set (k := twopi * inject_Z _) in *. clearbody k. split; lra.
Qed.

Theorem merge_ok omap sh : answers solve -> overlap_map f = Ok omap ->
  (b < length bulk)%nat -> (length files <= length (nth b bulk []))%nat ->
  (forall g x, In g files -> In x (file_coords g) -> in_shape sh x = true) ->
  exists r, merge_band_fl fl fd solve f omap max_degree bulk sh files b = Ok r.
Proof using All.
  intros Ha Em Lb Lb' Hsp. unfold merge_band_fl.
  pose proof (rd_nonneg fl u Hl) as Hu0. assert (0 <= u * R) as HuR0 by nra.
  assert (u * (R + 2) == u * R + 2 * u) as X0 by ring. assert (u * R <= 1 # 100) as HuR1 by lra.
  destruct (start_ok fl fd files bulk b bands Hb Htb Lb Lb') as (ts0 & E0). rewrite E0. cbn [bind].
  destruct (start_near fl fd u v Hl Hd Hu Hvu files R G beta bands b bulk e He HR HuR1 Hb Htb Hph HG Hsh Hbulk ts0 E0) as [C0 _].
  set (w0 := e + 6 * u * (R + 1)) in *. assert (0 <= w0) as Hw0 by (unfold w0; nra).
  destruct (adjust_ok fl u Hl solve K HK Hs Ha files f N R G Hrec Hnd HN HG Hun HR Hh omap w0 (degrees max_degree) ts0 0 Em Hw0 Hdr C0) as (ts & E1).
  unfold adjust_tiles_fl. rewrite E1. cbn [bind].
  pose proof (adjust_near fl u Hl solve K HK Hs files f N R G Hrec Hnd HN HG Hun HR Hh omap w0 ts0 ts (degrees max_degree) 0 Em Hw0 Hdr C0 E1) as C.
  unfold merged_band_fl. rewrite (proj2 (forallb_forall _ _)); [cbn [negb]; eauto|].
  intros t It. apply forallb_forall. intros x Ix. apply (Hsp (ft_file t)); [|exact Ix].
  rewrite <- (ct_files _ _ _ _ _ C). now apply in_map.
Qed.
End Aligned.
