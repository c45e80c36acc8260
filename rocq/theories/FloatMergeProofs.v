(** Rounding and the adjustment and merging of tiles. *)
From Verif Require Import Base BaseLemmas PoolProofs TileModel OverlapModel OverlapSpec DirichletModel MergeModel MergeSpec
  BulkProofs DirichletProofs TileStateProofs AdjustProofs BandProofs PhaseProofs FloatMcfSpec FloatMcfRound FloatPhaseProofs FloatMergeModel FloatMergeSpec.
From Coq Require Import List ZifyBool Lqa Permutation.
Import ListNotations.
Set Default Goal Selector "!".
Local Open Scope Q_scope.
Local Notation phase_of := OverlapSpec.phase_of.

Lemma cancel t x y : 0 < t -> t * x <= t * y -> x <= y.
Proof. intros H. now apply Qmult_le_l. Qed.

(** ** Wrapping around the model *)
Section Wrap.
Context (fl : Q -> Q) (u : Q) (Hl : rounding fl u) (Hu : u <= 1 # 1000) (R : Q).

Definition turns (m raw : Q) : Z := rint (fl (fl (raw - m) / fl twopi)).

(** The quotient that is rounded. *)
Lemma turns_near m raw : - R <= m <= R -> - R <= raw <= R ->
  - (2 * (u * R)) <= fl (fl (raw - m) / fl twopi) - (raw - m) / twopi <= 2 * (u * R).
Proof.
  intros A B. pose proof (rd_nonneg fl u Hl) as Hn. assert (0 <= R) as HR by lra.
  assert (0 <= u * R <= R * (1 # 1000)) as Hur by nra.
  pose proof (rd_bound fl u Hl (raw - m) (2 * R) ltac:(lra)) as E1. set (d := fl (raw - m)) in *. clearbody d.
  pose proof twopi_lo as L. pose proof twopi_hi as L'.
  pose proof (rd_bound fl u Hl twopi twopi ltac:(lra)) as E2. set (t := fl twopi) in *. clearbody t.
  assert (0 <= u * twopi <= twopi * (1 # 1000)) as Hut by nra. assert ((599 # 100) <= t) as Ht by lra.
  set (D := raw - m) in *. assert (- (2 * R) <= D <= 2 * R) as HD by (unfold D; lra). clearbody D. clear A B.
  assert (D == (D / twopi) * twopi) as F by (field; lra). assert (d == (d / t) * t) as F' by (field; lra).
  set (x := D / twopi) in *. set (q := d / t) in *. clearbody x q.
  assert (- (R * (35 # 100)) <= q <= R * (35 # 100)) as Hq.
  { assert (- ((2002 # 1000) * R) <= q * t <= (2002 # 1000) * R) as H by lra. clear - H Ht HR. split; apply (cancel t); nra. }
  pose proof (rd_bound fl u Hl q _ Hq) as E3.
  assert (twopi * (q - x) == (d - D) - q * (t - twopi)) as G by lra.
  assert (- (u * twopi * (R * (35 # 100))) <= q * (t - twopi) <= u * twopi * (R * (35 # 100))) as G'.
  { assert (0 <= u * twopi) by lra. nra. }
  assert (u * (2 * R) <= twopi * ((34 # 100) * (u * R))) as G2 by nra.
  assert (- ((34 # 100) * (u * R) + (35 # 100) * (u * R)) <= q - x <= (34 # 100) * (u * R) + (35 # 100) * (u * R)) as G3.
  { clear - G G' G2 E1 L. split; apply (cancel twopi); lra. }
  lra.
Qed.

Lemma wrap_near m raw : - R <= m <= R -> - R <= raw <= R ->
  - (10 * u * (R + 1)) <= wrap_around_fl fl m raw - (raw - twopi * inject_Z (turns m raw)) <= 10 * u * (R + 1) /\
  - (twopi * (1 # 2) + 13 * (u * R)) <= raw - m - twopi * inject_Z (turns m raw) <= twopi * (1 # 2) + 13 * (u * R).
Proof.
  intros A B. pose proof (rd_nonneg fl u Hl) as Hn. assert (0 <= R) as HR by lra.
  assert (0 <= u * R <= R * (1 # 1000)) as Hur by nra.
  pose proof (turns_near m raw A B) as E0. pose proof twopi_lo as L. pose proof twopi_hi as L'.
  assert (- (twopi * (1 # 2) + 13 * (u * R)) <= raw - m - twopi * inject_Z (turns m raw) <= twopi * (1 # 2) + 13 * (u * R)) as K.
  { unfold turns. set (y := fl _) in *. pose proof (rint_bound y) as Rb. set (k := inject_Z (rint y)) in *. clearbody k y.
    assert (raw - m == twopi * ((raw - m) / twopi)) as F by (field; lra). set (x := (raw - m) / twopi) in *. clearbody x.
    rewrite F. assert (- ((1 # 2) + 2 * (u * R)) <= x - k <= (1 # 2) + 2 * (u * R)) as H by lra. clear - H L L' Hur. nra. }
  split; [|exact K]. unfold wrap_around_fl. fold (turns m raw). set (k := inject_Z (turns m raw)) in *. clearbody k. clear E0.
  pose proof (rd_bound fl u Hl (raw - m) (2 * R) ltac:(lra)) as E1. set (d := fl (raw - m)) in *. clearbody d.
  assert (u * (2 * R) == 2 * (u * R)) as X by ring. rewrite X in E1. clear X.
  pose proof (rd_bound fl u Hl (m + d) (R + 2 * (u * R)) ltac:(lra)) as E2. set (a := fl (m + d)) in *. clearbody a.
  pose proof (rd_bound fl u Hl twopi twopi ltac:(lra)) as E3. set (t := fl twopi) in *. clearbody t.
  assert (0 <= u * twopi <= twopi * (1 # 1000)) as Hut by nra.
  set (Y := (202 # 100) * R + (32 # 10)).
  assert (- Y <= twopi * k <= Y) as HY by (unfold Y; lra).
  assert (0 <= u * Y) as HuY by (unfold Y; nra).
  assert (- (u * Y) <= (t - twopi) * k <= u * Y) as E4.
  { assert (exists y, 0 <= y /\ - y <= k <= y /\ twopi * y <= Y) as (y & Hy0 & Hy & HyY).
    { destruct (Qlt_le_dec k 0); [exists (- k)|exists k]; repeat split; lra. }
    assert (0 <= u * (twopi * y) <= u * Y) by nra. nra. }
  assert (u * Y <= Y * (1 # 1000)) as HuY' by nra.
  pose proof (rd_bound fl u Hl (t * k) (Y + u * Y) ltac:(lra)) as E5. set (b := fl (t * k)) in *. clearbody b.
  assert (u * (Y + u * Y) <= (1001 # 1000) * (u * Y)) as HuY2 by nra.
  assert (u * (R + 2 * (u * R)) <= (1002 # 1000) * (u * R)) as HuR2 by nra.
  assert (- ((11 # 10) * R + (33 # 10)) <= a - b <= (11 # 10) * R + (33 # 10)) as Hab by (unfold Y in *; lra).
  pose proof (rd_bound fl u Hl (a - b) _ Hab) as E6. unfold Y in *. lra.
Qed.

(** The number of cycles, when the model is near the true phase. *)
Lemma turns_eq m raw (z : Z) : - R <= m <= R -> - R <= raw <= R -> u * R <= 1 # 100 ->
  - (5 # 2) <= raw - m - twopi * inject_Z z <= 5 # 2 -> turns m raw = z.
Proof.
  intros A B Hur H. unfold turns. apply rint_unique. pose proof (turns_near m raw A B) as E.
  pose proof twopi_lo as L. assert (raw - m == twopi * ((raw - m) / twopi)) as F by (field; lra).
  set (x := (raw - m) / twopi) in *. set (y := fl _) in *. set (k := inject_Z z) in *. clearbody x y k.
  assert (- (5 # 12) <= x - k <= 5 # 12) as G by (rewrite F in H; clear - H L; split; apply (cancel twopi); lra).
  lra.
Qed.
End Wrap.

(** ** Averages *)
Section Average.
Context (fl : Q -> Q) (u : Q) (Hl : rounding fl u) (B : Q) (N : nat).
Let n := inject_Z (Z.of_nat N).
Definition eta : Q := 2 * u * n * B.
Hypothesis Hun : n * u <= 1 # 100.
Hypothesis HB : 0 <= B.

Lemma eta_pos : 0 <= n /\ 0 <= u /\ 0 <= n * u * B /\ eta == 2 * (n * u * B) /\ 0 <= eta.
Proof using Hl HB.
  assert (0 <= n) as Hn by (unfold n; change 0 with (inject_Z 0); apply inject_Z_le_iff; lia).
  pose proof (rd_nonneg fl u Hl) as H. assert (0 <= n * u) by nra. assert (0 <= n * u * B) by nra.
  assert (eta == 2 * (n * u * B)) as E by (unfold eta; ring). repeat split; auto. rewrite E. lra.
Qed.

(** One more value; [c] is the value that all of them are close to. *)
Lemma sum_step (k : nat) c w s y : (S k <= N)%nat -> - B <= c - w -> c + w <= B -> 
  let q := inject_Z (Z.of_nat k) in
  - (q * (w + eta)) <= s - q * c <= q * (w + eta) -> - w <= y - c <= w ->
  let q' := inject_Z (Z.of_nat (S k)) in
  - (q' * (w + eta)) <= fl (s + y) - q' * c <= q' * (w + eta).
Proof using Hl HB Hun.
  intros Hk H1 H2 q Hs Hy q'. destruct eta_pos as (Hn & Hu & Hp & Ee & He).
  assert (q' == q + 1) as Eq by (unfold q', q; rewrite Nat2Z.inj_succ, <- Z.add_1_r, inject_Z_add; reflexivity).
  assert (0 <= q) as Hq by (unfold q; change 0 with (inject_Z 0); apply inject_Z_le_iff; lia).
  assert (q + 1 <= n) as Hqn by (unfold q, n; change 1 with (inject_Z 1); rewrite <- inject_Z_add; apply inject_Z_le_iff; lia).
  rewrite Eq. clearbody q'. clear Eq q'.
  assert (- (n * (B + eta)) <= s + y <= n * (B + eta)) as Hb.
  { assert (- ((q + 1) * (B + eta)) <= s + y <= (q + 1) * (B + eta)) by nra. nra. }
  pose proof (rd_bound fl u Hl _ _ Hb) as E. 
  assert (u * (n * (B + eta)) <= eta) as Hη.
  { assert (n * u * eta <= eta * (1 # 100)) by nra. assert (u * (n * (B + eta)) == n * u * B + n * u * eta) as -> by ring. lra. }
  lra.
Qed.

Lemma avg_near (k : nat) c w s : (0 < k <= N)%nat -> - B <= c - w -> c + w <= B -> 
  let q := inject_Z (Z.of_nat k) in
  - (q * (w + eta)) <= s - q * c <= q * (w + eta) ->
  - (w + 2 * eta) <= fl (s / q) - c <= w + 2 * eta.
Proof using Hl HB Hun.
  intros Hk H1 H2 q Hs. destruct eta_pos as (Hn & Hu & Hp & Ee & He).
  assert (1 <= q) as Hq by (unfold q; change 1 with (inject_Z 1); apply inject_Z_le_iff; lia).
  assert (q <= n) as Hqn by (unfold q, n; apply inject_Z_le_iff; lia).
  assert (s == q * (s / q)) as F by (field; lra). set (a := s / q) in *. clearbody a.
  assert (- (w + eta) <= a - c <= w + eta) as Ha by (clear - Hs F Hq; split; apply (cancel q); lra).
  assert (- (B + eta) <= a <= B + eta) as Hb by lra.
  pose proof (rd_bound fl u Hl _ _ Hb) as E.
  assert (u * (B + eta) <= eta) as Hη.
  { assert (u <= n * u) by nra. assert (u * B <= n * u * B) by nra. assert (u * eta <= eta * (1 # 100)) by nra.
    assert (u * (B + eta) == u * B + u * eta) as -> by ring. lra. }
  lra.
Qed.
End Average.

(** ** Files as tiles *)
Definition shell (f : tile_file) : tile := Tile f [] [] [] 0.
Notation sh files i := (nth i (map shell files) dtile).

Lemma shells_file files : map t_file (map shell files) = files.
Proof. rewrite map_map. cbn. apply map_id. Qed.

Lemma shell_nth files i f : nth_error files i = Some f -> sh files i = shell f.
Proof. intros H. apply nth_error_nth with (d := dtile). now rewrite nth_error_map, H. Qed.

Lemma count_holders files x :
  length (filter (fun j => contains (sh files j) x) (seq 0 (length files)))
  = length (filter (fun f => existsb (point_eqb x) (file_coords f)) files).
Proof.
  transitivity (length (holders (map shell files) x)).
  - rewrite (holders_index (map shell files) x), !map_length. reflexivity.
  - unfold holders. induction files as [|f l IH]; [reflexivity|]. cbn [map filter].
    change (contains (shell f) x) with (existsb (point_eqb x) (file_coords f)).
    destruct (existsb _ _); cbn [length]; now rewrite IH.
Qed.

Lemma filter_len_incl {A} (p : A -> bool) l l' : NoDup l -> incl l l' -> (length (filter p l) <= length (filter p l'))%nat.
Proof.
  intros N I. apply NoDup_incl_length; [now apply NoDup_filter|]. intros x H. apply filter_In in H as [H1 H2].
  apply filter_In. auto.
Qed.

Lemma nth_error_ext_list {A} (a : list A) : forall b, (forall i, nth_error a i = nth_error b i) -> a = b.
Proof.
  induction a as [|x a IH]; intros [|y b] H; auto; try (specialize (H O); discriminate H).
  pose proof (H O) as H0. cbn in H0. injection H0 as ->. f_equal. apply IH. intros i. exact (H (S i)).
Qed.

Lemma put_cases {A} (d : A) m : forall vals base p, nth p (put m vals base) d = nth p base d \/ In (nth p (put m vals base) d) vals.
Proof.
  induction m as [|b m IH]; intros vals base p; [now left|]. destruct b, base as [|x base]; try (now left).
  - destruct vals as [|v vals]; destruct p as [|p]; cbn [put nth]; auto.
    + right. now left.
    + destruct (IH vals base p) as [H|H]; [now left|right; now right].
  - destruct p as [|p]; cbn [put nth]; auto.
Qed.

(** ** One pass of the adjustment *)
Section Pass.
Context (fl : Q -> Q) (u : Q) (Hl : rounding fl u).
Context (solve : list (Z * Z) -> list bool -> list Q -> res (list Q)) (K : Q) (HK : 1 <= K) (Hs : amplifies K solve).
Context (files : list tile_file) (f : overlap_file) (N : nat) (R : Q) (G : Z * Z -> Q).
Hypothesis Hrec : recorded_files f files.
Hypothesis Hnd : forall g, In g files -> NoDup (file_coords g).
Hypothesis HN : overlap_at_most N files.
Hypothesis HG : forall g x, In g files -> In x (file_coords g) -> - R <= G x <= R.
Let B := R + 10 * K.
Let h := eta u B N.
Hypothesis Hun : inject_Z (Z.of_nat N) * u <= 1 # 100.
Hypothesis Hh : h <= 1 # 10.

(** Tiles whose phases are all within [w] of the common field. *)
Record close_to (w : Q) (ts : list ftile) : Prop := {
  ct_files : map ft_file ts = files;
  ct_raw : forall t, In t ts -> length (ft_raw t) = ft_npoints t /\ length (ft_corr t) = ft_npoints t;
  ct_bound : forall t p, In t ts -> - (R + 1) <= nth p (ft_raw t) 0 <= R + 1;
  ct_near : forall t x p, In t ts -> nth_error (ft_coords t) p = Some x ->
    - w <= nth p (ft_raw t) 0 + nth p (ft_corr t) 0 - G x <= w
}.

Lemma phase_len t : length (ft_raw t) = ft_npoints t -> length (ft_corr t) = ft_npoints t ->
  length (phase_fl fl t) = ft_npoints t /\
  forall p, (p < ft_npoints t)%nat -> nth p (phase_fl fl t) 0 = fl (nth p (ft_raw t) 0 + nth p (ft_corr t) 0).
Proof.
  intros L1 L2. unfold phase_fl, add_fl. split; [rewrite map_length, combine_length; lia|].
  intros p Hp. rewrite (map_nth' _ _ _ (0, 0)) by (rewrite combine_length; lia).
  now rewrite combine_nth' by lia.
Qed.

Section One.
Context (w : Q) (ts : list ftile) (Hw : 0 <= w <= 1) (Hts : close_to w ts).

Lemma ts_len : length ts = length files.
Proof using Hts. now rewrite <- (ct_files _ _ Hts), map_length. Qed.

Lemma ts_nth i t : nth_error ts i = Some t -> nth_error files i = Some (ft_file t) /\ In (ft_file t) files /\ In t ts /\ (i < length files)%nat.
Proof using Hts.
  intros E. assert (nth_error files i = Some (ft_file t)) as F by now rewrite <- (ct_files _ _ Hts), nth_error_map, E.
  repeat split; auto.
  - eapply nth_error_In; eauto.
  - eapply nth_error_In; eauto.
  - apply nth_error_Some. congruence.
Qed.

Lemma some_holder g x : In g files -> In x (file_coords g) -> (1 <= N)%nat.
Proof using HN.
  intros Ig Ix. specialize (HN x). enough (In g (filter (fun f => existsb (point_eqb x) (file_coords f)) files)) as I.
  { destruct (filter _ files); [destruct I|cbn [length] in HN; lia]. }
  apply filter_In. split; [auto|]. apply existsb_exists. exists x. split; [auto|]. apply point_eqb_refl.
Qed.

Lemma sizes g x : In g files -> In x (file_coords g) ->
  - R <= G x <= R /\ 0 <= R /\ 0 <= u /\ 0 <= B /\ 2 * (u * B) <= h /\ 0 <= h.
Proof using Hl HK HN HG Hh.
  intros Ig Ix. pose proof (HG g x Ig Ix) as A. pose proof (some_holder g x Ig Ix) as Hn1.
  pose proof (rd_nonneg fl u Hl) as Hu. assert (0 <= R) as HR by lra. assert (0 <= B) as HB by (unfold B; lra).
  assert (1 <= inject_Z (Z.of_nat N)) as Hn by (change 1 with (inject_Z 1); apply inject_Z_le_iff; lia).
  assert (0 <= u * B) as HuB by nra.
  assert (2 * (u * B) <= h) as H by (unfold h, eta; nra).
  repeat split; auto; lra.
Qed.

Lemma phase_near t x p : In t ts -> In (ft_file t) files -> nth_error (ft_coords t) p = Some x ->
  - (w + h) <= nth p (phase_fl fl t) 0 - G x <= w + h.
Proof using Hl HK HN HG Hh Hw Hts.
  intros It If Ex. destruct (ct_raw _ _ Hts t It) as [L1 L2]. destruct (phase_len t L1 L2) as [_ P].
  assert (p < ft_npoints t)%nat as Hp by (unfold ft_npoints; apply nth_error_Some; congruence). rewrite P by exact Hp.
  pose proof (ct_near _ _ Hts t x p It Ex) as A.
  destruct (sizes (ft_file t) x If) as (S1 & S2 & S3 & S4 & S5 & S6); [eapply nth_error_In; eauto|].
  set (a := nth p (ft_raw t) 0 + nth p (ft_corr t) 0) in *. clearbody a.
  pose proof (rd_bound fl u Hl a B ltac:(unfold B; lra)) as E. lra.
Qed.

(** The counts and sums of tile [ii]. *)
Definition acc_ok (ti : ftile) (cs : list nat * list Q) (left : Z * Z -> nat) : Prop :=
  length (fst cs) = ft_npoints ti /\ length (snd cs) = ft_npoints ti /\
  forall x p, nth_error (ft_coords ti) p = Some x ->
    (0 < nth p (fst cs) O)%nat /\ (nth p (fst cs) O + left x <= N)%nat /\
    let q := inject_Z (Z.of_nat (nth p (fst cs) O)) in
    - (q * (w + h + h)) <= nth p (snd cs) 0 - q * G x <= q * (w + h + h).

Lemma add_neighbour_near ii ti jj cs (left : Z * Z -> nat) : nth_error ts ii = Some ti -> link f ii jj ->
  acc_ok ti cs (fun x => held (sh files jj) x + left x)%nat ->
  exists cs', add_neighbour_fl fl f ts ii cs jj = Ok cs' /\ acc_ok ti cs' left.
Proof using All.
  intros Ei Lk (Lc & Ls & V). destruct cs as [c s]. cbn [fst snd] in *.
  pose proof (Hrec (map shell files) (shells_file files)) as Hr. pose proof Hr as (_ & _ & Ho & _).
  destruct (Ho _ _ Lk) as (H1 & H2 & _). rewrite map_length in H2.
  destruct (ts_nth ii ti Ei) as (Fi & Ii & Ti & Bi).
  assert (jj < length ts)%nat as Bj by (rewrite ts_len; lia).
  destruct (nth_error ts jj) as [tj|] eqn:Ej; [|apply nth_error_None in Ej; lia].
  destruct (ts_nth jj tj Ej) as (Fj & Ij & Tj & _).
  pose proof (shell_nth _ _ _ Fi) as Si. pose proof (shell_nth _ _ _ Fj) as Sj.
  assert (exists ci cj, (if (ii <? jj)%nat then get_common_overlap f ii jj
              else do ji <- get_common_overlap f jj ii; Ok (snd ji, fst ji)) = Ok (ci, cj) /\
          matches (shell (ft_file ti)) (shell (ft_file tj)) ci cj) as (ci & cj & Eg & M).
  { rewrite <- Si, <- Sj.
    destruct (common_matches f _ _ _ Hr Lk) as (c1 & c2 & E & M1 & M2). destruct (ii <? jj)%nat eqn:Lt.
    - replace (Nat.min ii jj) with ii in * by lia. replace (Nat.max ii jj) with jj in * by lia. eauto.
    - replace (Nat.min ii jj) with jj in * by lia. replace (Nat.max ii jj) with ii in * by lia. rewrite E. cbn. eauto. }
  unfold add_neighbour_fl. rewrite Ej, Eg. cbn [bind].
  pose proof (match_bounds _ _ _ _ M) as [B1 B2].
  change (npoints (shell (ft_file ti))) with (ft_npoints ti) in B1. change (npoints (shell (ft_file tj))) with (ft_npoints tj) in B2.
  rewrite (proj2 (forallb_forall _ _)) by (intros k I; rewrite Lc; specialize (B1 k I); lia).
  rewrite (proj2 (forallb_forall _ _)) by (intros k I; specialize (B2 k I); lia).
  replace (length ci =? length cj)%nat with true by (destruct M; lia). cbn [negb].
  assert (repeat 1%nat (length ci) = map (fun _ => 1%nat) cj) as Er.
  { destruct M as [L _]. rewrite L. clear. induction cj; cbn; congruence. }
  rewrite Er. eexists. split; [reflexivity|]. unfold acc_ok. cbn [fst snd].
  split; [rewrite <- Lc; apply scatter_add_spec; [apply M|rewrite map_length; apply M]|].
  split; [rewrite <- Ls; apply scatter_add_spec; [apply M|rewrite map_length; apply M]|].
  intros x p P. destruct (V x p P) as (V1 & V2 & V3). rewrite Sj in V2.
  destruct (scatter_match Nat.add 0%nat (shell (ft_file ti)) (shell (ft_file tj)) _ _ (fun _ => 1%nat) c x p (Hnd _ Ii) M Lc P) as (_ & C1 & C2).
  destruct (scatter_match (fun a b => fl (a + b)) 0 (shell (ft_file ti)) (shell (ft_file tj)) _ _ (fun k => nth k (phase_fl fl tj) 0) s x p (Hnd _ Ii) M Ls P) as (_ & S1 & S2).
  unfold held in V2. destruct (contains (shell (ft_file tj)) x) eqn:Cx.
  - apply contains_spec in Cx as (q & Pq). rewrite (C1 q Pq), (S1 q Pq).
    split; [lia|]. split; [lia|]. cbv zeta.
    destruct (sizes (ft_file ti) x Ii) as (Z1 & Z2 & Z3 & Z4 & Z5 & Z6); [eapply nth_error_In; eauto|].
    replace (nth p c O + 1)%nat with (S (nth p c O)) by lia.
    apply (sum_step fl u Hl B N Hun Z4); [lia| | |exact V3|].
    + unfold B. lra.
    + unfold B. lra.
    + apply (phase_near tj x q Tj Ij Pq).
  - rewrite (C2 eq_refl), (S2 eq_refl). split; [auto|]. split; [lia|exact V3].
Qed.

Lemma add_neighbours_near ii ti : nth_error ts ii = Some ti -> forall nbrs cs, (forall j, In j nbrs -> link f ii j) ->
  acc_ok ti cs (fun x => length (filter (fun j => contains (sh files j) x) nbrs)) ->
  exists cs', fold_res (add_neighbour_fl fl f ts ii) cs nbrs = Ok cs' /\ acc_ok ti cs' (fun _ => O).
Proof using All.
  intros Ei. induction nbrs as [|j nbrs IH]; intros cs Lk A; [now exists cs|].
  destruct (add_neighbour_near ii ti j cs (fun x => length (filter (fun j => contains (sh files j) x) nbrs)) Ei) as (cs1 & E1 & A1).
  - apply Lk. now left.
  - destruct A as (L1 & L2 & V). split; [auto|]. split; [auto|]. intros x p P. destruct (V x p P) as (V1 & V2 & V3).
    split; [auto|]. split; [|auto]. unfold held. cbn [filter] in V2. destruct (contains (sh files j) x); cbn [length] in V2; lia.
  - destruct (IH cs1) as (cs2 & E2 & A2); [intros; apply Lk; now right|auto|].
    exists cs2. split; [|auto]. cbn [fold_res]. rewrite E1. exact E2.
Qed.

Lemma gathered_near ii ti : nth_error ts ii = Some ti ->
  exists cs, fold_res (add_neighbour_fl fl f ts ii) (repeat 1%nat (ft_npoints ti), phase_fl fl ti) (neighbours f ii) = Ok cs /\
    acc_ok ti cs (fun _ => O).
Proof using All.
  intros Ei. pose proof (Hrec (map shell files) (shells_file files)) as Hr.
  destruct (ts_nth ii ti Ei) as (Fi & Ii & Ti & Bi). pose proof (shell_nth _ _ _ Fi) as Si.
  apply (add_neighbours_near ii ti Ei).
  - intros j. apply (neighbours_link f _ Hr).
  - destruct (ct_raw _ _ Hts ti Ti) as [L1 L2]. destruct (phase_len ti L1 L2) as [Lp _].
    split; [apply repeat_length|]. split; [exact Lp|]. intros x p P. cbn [fst snd].
    assert (p < ft_npoints ti)%nat as Hp by (unfold ft_npoints; apply nth_error_Some; congruence).
    rewrite nth_repeat_lt by exact Hp. split; [lia|]. split.
    + specialize (HN x). rewrite <- count_holders in HN.
      assert (contains (sh files ii) x = true) as Cx by (rewrite Si; apply contains_spec; now exists p).
      assert (length (filter (fun j => contains (sh files j) x) (ii :: neighbours f ii))
              <= length (filter (fun j => contains (sh files j) x) (seq 0 (length files))))%nat as Hle.
      { pose proof Hr as (_ & _ & Ho & _). apply filter_len_incl.
        - constructor; [|apply (neighbours_nodup f _ Hr)]. intros I. apply (neighbours_link f _ Hr) in I. apply Ho in I. lia.
        - intros j [<-|I]; [apply in_seq; lia|]. apply (neighbours_link f _ Hr) in I. apply Ho in I. rewrite map_length in I.
          apply in_seq. lia. }
      cbn [filter] in Hle. rewrite Cx in Hle. cbn [length] in Hle. lia.
    + cbv zeta. change (inject_Z (Z.of_nat 1)) with 1.
      destruct (sizes (ft_file ti) x Ii) as (Z1 & Z2 & Z3 & Z4 & Z5 & Z6); [eapply nth_error_In; eauto|].
      pose proof (phase_near ti x p Ti Ii P). lra.
Qed.

Lemma adjust_tile_near omap degree ii ti t' : overlap_map f = Ok omap -> nth_error ts ii = Some ti ->
  adjust_tile_fl fl solve f omap degree ts ii = Ok t' ->
  ft_file t' = ft_file ti /\ ft_raw t' = ft_raw ti /\ length (ft_corr t') = ft_npoints ti /\
  forall x p, nth_error (ft_coords ti) p = Some x ->
    let w' := (1 + 2 * K) * w + 8 * K * h in
    - w' <= nth p (ft_raw ti) 0 + nth p (ft_corr t') 0 - G x <= w'.
Proof using All.
  intros Em Ei E. pose proof (Hrec (map shell files) (shells_file files)) as Hr.
  destruct (ts_nth ii ti Ei) as (Fi & Ii & Ti & Bi). destruct (ct_raw _ _ Hts ti Ti) as [L1 L2].
  destruct (phase_len ti L1 L2) as [Lp Pp].
  rewrite (overlap_map_ok f _ Hr) in Em. injection Em as <-. rewrite map_length in E.
  unfold adjust_tile_fl in E. rewrite Ei in E.
  rewrite (nth_error_nth' _ []) in E by (rewrite map_length, seq_length; lia).
  rewrite (map_nth' _ _ _ O), seq_nth in E by (rewrite ?seq_length; lia). cbn [Nat.add] in E.
  destruct (gathered_near ii ti Ei) as ([c s] & Ec & (Lc & Ls & V)). rewrite Ec in E. cbn [bind fst snd] in *.
  set (mask := map (fun k => (degree <=? k)%nat) c) in E.
  assert (forall x p, nth_error (ft_coords ti) p = Some x ->
    0 <= h /\ (w <= (1 + 2 * K) * w + 8 * K * h)) as Hgrow.
  { intros x p P. destruct (sizes (ft_file ti) x Ii) as (Z1 & Z2 & Z3 & Z4 & Z5 & Z6); [eapply nth_error_In; eauto|]. split; nra. }
  destruct (existsb (fun b => b) mask); cbn [negb] in E.
  2:{ injection E as <-. split; [auto|]. split; [auto|]. split; [auto|]. intros x p P. cbv zeta.
      destruct (Hgrow x p P). pose proof (ct_near _ _ Hts ti x p Ti P). lra. }
  set (avg := map (fun sc => fl (fst sc / inject_Z (Z.of_nat (snd sc)))) (combine s c)) in E.
  set (rc := map (fun ad => fl (fst ad - snd ad)) (combine avg (phase_fl fl ti))) in E.
  assert (length avg = ft_npoints ti) as La by (unfold avg; rewrite map_length, combine_length; lia).
  assert (length rc = ft_npoints ti) as Lrc by (unfold rc; rewrite map_length, combine_length; lia).
  set (M := 2 * w + 5 * h).
  assert (forall x p, nth_error (ft_coords ti) p = Some x -> - M <= nth p rc 0 <= M) as Hrc.
  { intros x p P. assert (p < ft_npoints ti)%nat as Hp by (unfold ft_npoints; apply nth_error_Some; congruence).
    unfold rc. rewrite (map_nth' _ _ _ (0, 0)) by (rewrite combine_length; lia). rewrite combine_nth' by lia. cbn [fst snd].
    unfold avg. rewrite (map_nth' _ _ _ (0, O)) by (rewrite combine_length; lia). rewrite combine_nth' by lia. cbn [fst snd].
    destruct (sizes (ft_file ti) x Ii) as (Z1 & Z2 & Z3 & Z4 & Z5 & Z6); [eapply nth_error_In; eauto|].
    destruct (V x p P) as (V1 & V2 & V3). cbv zeta in V3.
    pose proof (avg_near fl u Hl B N Hun Z4 (nth p c O) (G x) (w + h) (nth p s 0)) as A. cbv zeta in A. fold h in A.
    specialize (A ltac:(lia) ltac:(unfold B; lra) ltac:(unfold B; lra) V3).
    pose proof (phase_near ti x p Ti Ii P) as D.
    set (a := fl (nth p s 0 / _)) in *. set (d := nth p (phase_fl fl ti) 0) in *. clearbody a d.
    assert (- (2 * w + 4 * h) <= a - d <= 2 * w + 4 * h) as Had by lra.
    pose proof (rd_bound fl u Hl (a - d) B ltac:(unfold B; lra)) as Ef. unfold M. lra. }
  assert (forall p, nth p mask false = true -> Qabs (nth p rc 0) <= M) as Hmask.
  { intros p Hm. apply abs_le. assert (p < length mask)%nat as Hp.
    { destruct (Nat.lt_ge_cases p (length mask)); [auto|]. rewrite nth_overflow in Hm by lia. discriminate. }
    unfold mask in Hp. rewrite map_length, Lc in Hp. unfold ft_npoints in Hp.
    apply nth_error_Some in Hp. destruct (nth_error (ft_coords ti) p) as [x|] eqn:P; [|easy]. eauto. }
  unfold dirichlet_fl in E. destruct (solve (ft_coords ti) mask rc) as [sol|] eqn:Esol; [|discriminate E]. cbn [bind] in E.
  destruct (length sol =? _)%nat; [|discriminate E]. cbn [negb bind] in E. injection E as <-. cbn [ft_file ft_raw ft_corr].
  set (corr := put (off mask) (map fl sol) rc).
  assert (length corr = ft_npoints ti) as Lcorr by (unfold corr; now rewrite put_length).
  split; [auto|]. split; [auto|]. split; [unfold add_fl; rewrite map_length, combine_length; lia|].
  intros x p P. cbv zeta. assert (p < ft_npoints ti)%nat as Hp by (unfold ft_npoints; apply nth_error_Some; congruence).
  unfold add_fl. rewrite (map_nth' _ _ _ (0, 0)) by (rewrite combine_length; lia). rewrite combine_nth' by lia. cbn [fst snd].
  destruct (sizes (ft_file ti) x Ii) as (Z1 & Z2 & Z3 & Z4 & Z5 & Z6); [eapply nth_error_In; eauto|].
  assert (0 <= M) as HM by (unfold M; lra).
  assert (M <= K * M) as HKM by nra.
  assert (K * M <= (5 # 2) * K) as HK5 by (unfold M; nra).
  assert (K * M <= B) as HKB by (unfold B; lra).
  assert (u * (K * M) <= h) as HuKM by nra.
  assert (- (K * M + h) <= nth p corr 0 <= K * M + h) as Hc.
  { destruct (put_cases 0 (off mask) (map fl sol) rc p) as [X|X]; fold corr in X.
    - rewrite X. pose proof (Hrc x p P). lra.
    - apply in_map_iff in X as (v & Xv & Iv). rewrite <- Xv.
      pose proof (Hs _ _ _ _ M Esol HM Hmask v Iv) as Av. apply abs_le in Av.
      pose proof (rd_bound fl u Hl v _ Av). lra. }
  pose proof (ct_near _ _ Hts ti x p Ti P) as D. pose proof (ct_bound _ _ Hts ti p Ti) as Db.
  set (r := nth p (ft_raw ti) 0) in *. set (k := nth p (ft_corr ti) 0) in *. set (d := nth p corr 0) in *. clearbody r k d.
  pose proof (rd_bound fl u Hl (k + d) (2 * B) ltac:(unfold B in *; lra)) as E.
  assert (K * M == 2 * (K * w) + 5 * (K * h)) as EM by (unfold M; ring).
  assert ((1 + 2 * K) * w + 8 * K * h == w + 2 * (K * w) + 8 * (K * h)) as -> by ring.
  assert (h <= K * h) by nra. lra.
Qed.

Lemma adjust_pass_near omap degree ts' : overlap_map f = Ok omap ->
  adjust_pass_fl fl solve f omap ts degree = Ok ts' -> close_to ((1 + 2 * K) * w + 8 * K * h) ts'.
Proof using All.
  intros Em E. unfold adjust_pass_fl in E. apply BulkProofs.map_res_nth in E as [L A]. rewrite seq_length in L, A.
  assert (forall i t', nth_error ts' i = Some t' -> exists ti, nth_error ts i = Some ti /\
    adjust_tile_fl fl solve f omap degree ts i = Ok t') as Hi.
  { intros i t' E. assert (i < length ts)%nat as Bi by (rewrite <- L; apply nth_error_Some; congruence).
    specialize (A i O t' Bi). rewrite seq_nth in A by exact Bi. cbn [Nat.add] in A.
    rewrite (nth_error_nth _ _ t' E) in A. destruct (nth_error ts i) as [ti|] eqn:Ei; [eauto|].
    apply nth_error_None in Ei. lia. }
  assert (forall t', In t' ts' -> exists i ti, nth_error ts i = Some ti /\ adjust_tile_fl fl solve f omap degree ts i = Ok t') as Hin.
  { intros t' I. apply In_nth_error in I as (i & E). destruct (Hi i t' E) as (ti & E1 & E2). eauto. }
  constructor.
  - rewrite <- (ct_files _ _ Hts). apply nth_error_ext_list.
    intros i. rewrite !nth_error_map. destruct (nth_error ts' i) as [t'|] eqn:E'.
    + destruct (Hi i t' E') as (ti & Ei & Ea). rewrite Ei. cbn. f_equal. apply (adjust_tile_near _ _ _ _ _ Em Ei Ea).
    + apply nth_error_None in E'. destruct (nth_error ts i) eqn:Ei; [|reflexivity].
      assert (i < length ts)%nat by (apply nth_error_Some; congruence). lia.
  - intros t' I. destruct (Hin t' I) as (i & ti & Ei & Ea). destruct (adjust_tile_near _ _ _ _ _ Em Ei Ea) as (F1 & F2 & F3 & _).
    destruct (ct_raw _ _ Hts ti) as [L1 _]; [eapply nth_error_In; eauto|]. unfold ft_npoints, ft_coords in *. rewrite F1, F2, F3. auto.
  - intros t' p I. destruct (Hin t' I) as (i & ti & Ei & Ea). destruct (adjust_tile_near _ _ _ _ _ Em Ei Ea) as (F1 & F2 & _).
    rewrite F2. apply (ct_bound _ _ Hts). eapply nth_error_In; eauto.
  - intros t' x p I P. destruct (Hin t' I) as (i & ti & Ei & Ea). destruct (adjust_tile_near _ _ _ _ _ Em Ei Ea) as (F1 & F2 & _ & F4).
    rewrite F2. apply F4. unfold ft_coords in *. now rewrite <- F1.
Qed.
End One.
End Pass.
