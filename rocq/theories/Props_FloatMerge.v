(** C66: rounding does not upset the merge of tiles. *)
From Verif Require Import Base BaseLemmas GraphSpec TileModel TileSpec OverlapModel OverlapSpec OverlapProofs DirichletModel DirichletSpec DirichletProofs
  MergeModel MergeSpec BulkProofs DescribeProofs MergeBatchProofs FloatModel FloatMcfModel FloatMcfSpec FloatMcfRound FloatPhaseProofs FloatMergeModel FloatMergeSpec
  FloatStatsProofs FloatMergeProofs FloatMergeRun Props_Merge Props_FloatMcf.
From Coq Require Import List ZifyBool Lqa.
Import ListNotations.
Set Default Goal Selector "!".
Local Open Scope Q_scope.
Local Notation phase_of := OverlapSpec.phase_of.

(** Without rounding the overlaps are those of the exact model. *)
Theorem C66_unrounded comps min_points files t :
  compute_phasediff_deciles_fl (fun x => x) (fun x => x) comps min_points files t = compute_phasediff_deciles comps min_points files t.
Proof. reflexivity. Qed.

(** The statistics of the overlaps are exactly those of the exact phases, if these
    differ by whole cycles and the phases in the files are off by less than 1/40
    in all. *)
Theorem C66_overlaps fl fc u v files exact t bands R e H W comps min_points :
  rounding fl u -> rounding fc v -> u <= 1 # 1000 -> v <= 1 # 1000 ->
  Forall2 (near_file e) files exact ->
  (forall f, In f files -> tile_bands bands f) -> (forall f, In f exact -> tile_bands bands f) ->
  length exact = ntiles t -> (forall n, (n < ntiles t)%nat -> tf_tile (nth n exact dfile) = tile_at t n) ->
  (forall f, In f exact -> in_grid H W (file_coords f)) -> (H * W <= 2 ^ 32)%Z ->
  phases_within R bands exact -> R <= 100000 -> whole_cycles bands exact -> e + 5 * u * R <= 1 # 40 ->
  compute_phasediff_deciles_fl fl fc comps min_points files t = compute_phasediff_deciles comps min_points exact t.
Proof. intros. eapply overlaps_same; eauto. Qed.

(** Whatever the tiles hold, each pixel of the merged band is the phase of the last
    tile that contains it, moved by whole cycles up to a few units of rounding;
    and it is at most half a cycle and a few units further from the middle of the
    corrected phases than these are. *)
Theorem C66_congruent fl u ts sh r x c d R N : rounding fl u -> u <= 1 # 1000 ->
  merged_band_fl fl ts sh = Ok r -> in_shape sh x = true ->
  (length (filter (fun t => existsb (point_eqb x) (ft_coords t)) ts) <= N)%nat -> inject_Z (Z.of_nat N) * u <= 1 # 100 ->
  (forall t, In t ts -> NoDup (ft_coords t) /\ length (ft_raw t) = ft_npoints t /\ length (ft_corr t) = ft_npoints t) ->
  - R <= c - d -> c + d <= R ->
  (forall t p, In t ts -> nth_error (ft_coords t) p = Some x ->
     - R <= nth p (ft_raw t) 0 <= R /\ c - d <= nth p (phase_fl fl t) 0 <= c + d) ->
  forall j t p, nth_error ts j = Some t -> nth_error (ft_coords t) p = Some x ->
  (forall j' t', (j < j')%nat -> nth_error ts j' = Some t' -> ~ In x (ft_coords t')) ->
  exists y k, pixel r x = Some y /\
    Qabs (y - (nth p (ft_raw t) 0 - twopi * inject_Z k)) <= 11 * u * (R + 1) /\
    Qabs (y - c) <= twopi * (1 # 2) + d + (30 + 4 * inject_Z (Z.of_nat N)) * u * (R + 1).
Proof.
  intros Hl Hu E Hx HN Hun Ht H1 H2 Hp j t p Ej Ep Hlast.
  destruct (merged_congruent fl u ts sh r x c d R N Hl Hu E Hx HN Hun Ht H1 H2 Hp j t p Ej Ep Hlast) as (y & k & E1 & E2 & E3).
  exists y, k. split; [exact E1|]. split; apply Qabs_Qle_condition; assumption.
Qed.

Section Field.
Context (fl fd : Q -> Q) (u v : Q).
Context (solve : list (Z * Z) -> list bool -> list Q -> res (list Q)) (K : Q).
Context (files : list tile_file) (f : overlap_file) (N : nat) (R : Q) (G : Z * Z -> Q).
Context (beta : nat -> Z) (bands b : nat) (bulk : list (list Q)) (e : Q) (max_degree : nat).
(* the formats and the solver *)
Hypothesis Hl : rounding fl u.
Hypothesis Hd : rounding fd v.
Hypothesis Hu : u <= 1 # 1000.
Hypothesis Hvu : v <= u.
Hypothesis HK : 1 <= K.
Hypothesis Hs : amplifies K solve.
(* the files *)
Hypothesis Hrec : recorded_files f files.
Hypothesis Hnd : forall g, In g files -> NoDup (file_coords g).
Hypothesis HN : overlap_at_most N files.
Hypothesis Hb : (b < bands)%nat.
Hypothesis Htb : forall g, In g files -> tile_bands bands g.
(* they show one field, up to whole cycles, which the bulk offsets undo *)
Hypothesis Hsh : shows e b G beta files.
Hypothesis Hbulk : forall j, (j < length files)%nat -> nth j (nth b bulk []) 0 == inject_Z (beta j).
(* the sizes of the phases *)
Hypothesis He : 0 <= e <= 1.
Hypothesis HR : 0 <= R.
Hypothesis HG : forall g x, In g files -> In x (file_coords g) -> - R <= G x <= R.
Hypothesis Hph : phases_within R bands files.
Hypothesis Hun : inject_Z (Z.of_nat N) * u <= 1 # 100.
Hypothesis HuR : u * (R + 2) <= 1 # 100.
Let h := 2 * u * inject_Z (Z.of_nat N) * (R + 10 * K).
Hypothesis Hh : h <= 1 # 10.
Hypothesis Hdr : drift K h (length (degrees max_degree)) (e + 6 * u * (R + 1)) <= 1.

(** The merged band shows that field again, as precisely as the files do up to a
    few units of rounding: the passes of the adjustment leave no trace. *)
Theorem C66_aligned omap sh r x : overlap_map f = Ok omap -> in_shape sh x = true ->
  merge_band_fl fl fd solve f omap max_degree bulk sh files b = Ok r ->
  ((forall g, In g files -> ~ In x (file_coords g)) /\ pixel r x = None) \/
  exists j g p y, nth_error files j = Some g /\ file_point g x p /\
    (forall j' g', (j < j')%nat -> nth_error files j' = Some g' -> ~ In x (file_coords g')) /\
    pixel r x = Some y /\
    Qabs (y - (phase_of g b p - twopi * inject_Z (beta j))) <= 11 * u * (R + 3) /\
    Qabs (y - G x) <= e + 11 * u * (R + 3).
Proof using All.
  intros Em Hx E.
  destruct (merged_aligned fl fd u v Hl Hd Hu Hvu solve K HK Hs files f N R G beta bands b bulk e Hrec Hnd HN HG He HR Hb Htb Hph Hsh Hbulk Hun HuR Hh
    max_degree Hdr omap sh r x Em Hx E) as [H|(j & g & p & y & H1 & H2 & H3 & H4 & H5 & H6)]; [now left|right].
  exists j, g, p, y. repeat (split; [assumption|]). split; apply Qabs_Qle_condition; assumption.
Qed.

(** There is a merged band, if the solver answers and the image holds the tiles. *)
Theorem C66_total omap sh : answers solve -> overlap_map f = Ok omap ->
  (b < length bulk)%nat -> (length files <= length (nth b bulk []))%nat ->
  (forall g x, In g files -> In x (file_coords g) -> in_shape sh x = true) ->
  exists r, merge_band_fl fl fd solve f omap max_degree bulk sh files b = Ok r.
Proof using All.
  apply (merge_ok fl fd u v Hl Hd Hu Hvu solve K HK Hs files f N R G beta bands b bulk e Hrec Hnd HN HG He HR Hb Htb Hph Hsh Hbulk Hun HuR Hh max_degree Hdr).
Qed.
End Field.

(** A solver that balances every point off the mask with its neighbours, in a graph
    where all of them reach the mask, amplifies by 1. *)
Lemma put_all {A} (dflt : A) m : forall vals base a, length vals = length (sel m base) -> In a vals ->
  exists p, (p < length m)%nat /\ nth p (put m vals base) dflt = a.
Proof.
  induction m as [|[] m IH]; intros vals [|b base] a L I; cbn [sel length put] in *; try (destruct vals; [destruct I|discriminate L]).
  - destruct vals as [|v vals]; [destruct I|]. destruct I as [<-|I]; [exists O; split; [lia|reflexivity]|].
    destruct (IH vals base a ltac:(cbn in L; lia) I) as (p & Hp & E). exists (S p). split; [lia|exact E].
  - destruct (IH vals base a L I) as (p & Hp & E). exists (S p). split; [lia|exact E].
Qed.
Lemma put_keeps {A} (dflt : A) m : forall vals base p, nth p m false = true -> nth p (put (off m) vals base) dflt = nth p base dflt.
Proof.
  induction m as [|[] m IH]; intros vals [|b base] [|p] H; cbn in *; try discriminate; auto.
  destruct vals; cbn; apply IH, H.
Qed.

Theorem C66_harmonic (solve : list (Z * Z) -> list bool -> list Q -> res (list Q)) :
  (forall cs mask xf x, solve cs mask xf = Ok x -> length xf = length mask /\ length x = length (filter negb mask) /\
     exists links, (forall l, In l links -> (fst l < length mask)%nat /\ (snd l < length mask)%nat) /\ anchored links mask /\
       harmonic_off links (put (off mask) x xf) mask) ->
  amplifies 1 solve.
Proof.
  intros H cs mask xf x M E HM Hb v Iv. destruct (H cs mask xf x E) as (L1 & L2 & links & Hin & Ha & Hh).
  assert (length (put (off mask) x xf) = length mask) as Lp by (rewrite put_length; exact L1).
  assert (forall m, masked mask m -> - M <= nth m (put (off mask) x xf) 0 <= M) as Hm.
  { intros m Hm. rewrite put_keeps by exact Hm. apply Qabs_Qle_condition, Hb, Hm. }
  destruct (put_all 0 (off mask) x xf v) as (p & Hp & <-); [now rewrite off_free|exact Iv|].
  rewrite off_length in Hp. apply Qabs_Qle_condition.
  pose proof (max_principle links mask Hin Ha _ M Lp Hh (fun m Mm => proj2 (Hm m Mm)) p Hp) as U.
  pose proof (min_principle links mask Hin Ha _ (- M) Lp Hh (fun m Mm => proj1 (Hm m Mm)) p Hp) as D.
  rewrite Qmult_1_l. now split.
Qed.

(** * Cases *)
(** Two tiles of 24 points in float32, with 12 points in common; the second one is a
    cycle higher. *)
Definition fm_field (x : Z * Z) : Q := 100 + inject_Z (fst x) / 3 + inject_Z (snd x) / 7.
Definition fm_uw : list Q := map (fun x => inject_Z (fst x) / 3 + inject_Z (snd x) / 7) ex_points.
Definition fm_exact : list tile_file :=
  [TileFile ex_points (BBox 0 0 2 12) [fm_uw] [100];
   TileFile ex_points (BBox 1 0 3 12) [fm_uw] [100 + (1 # 3) + twopi]].
Definition fm_files : list tile_file :=
  map (fun g => TileFile (tf_points g) (tf_tile g) (map (map rnd32) (tf_uw g)) (map rnd32 (tf_offset g))) fm_exact.
Definition fm_overlaps : overlap_file :=
  OFile [OGroup (0, 1)%nat (seq 12 12) (seq 0 12) [repeat 1%Z 11]] [0; 0]%nat [(0, 1)%nat].
(** Every value off the mask is the first one on it. *)
Definition fm_solve (cs : list (Z * Z)) (mask : list bool) (xf : list Q) : res (list Q) :=
  Ok (repeat (nth 0 (sel mask xf) 0) (length (filter negb mask))).

Lemma fm_amplifies : amplifies 1 fm_solve.
Proof.
  intros cs mask xf x M E HM Hb v Iv. injection E as <-. apply repeat_spec in Iv as ->. rewrite Qmult_1_l.
  clear cs. revert xf Hb. induction mask as [|m mask IH]; intros [|a xf] Hb; cbn [sel nth]; try exact HM.
  - destruct m; exact HM.
  - destruct m; cbn [nth].
    + exact (Hb O eq_refl).
    + apply IH. intros p. exact (Hb (S p)).
Qed.
Lemma fm_answers : answers fm_solve.
Proof. intros cs mask xf _ _ _. eexists. split; [reflexivity|]. apply repeat_length. Qed.

Lemma fm_points g : In g fm_files \/ In g fm_exact -> tf_points g = ex_points /\ tile_bands 1 g /\ NoDup (file_coords g) /\ in_grid 3 12 (file_coords g) /\
  forall x, In x (file_coords g) -> in_shape (3, 12)%Z x = true.
Proof.
  intros I. assert (tf_points g = ex_points) as E by (destruct I as [[<-|[<-|[]]]|[<-|[<-|[]]]]; reflexivity).
  split; [exact E|]. split; [destruct I as [[<-|[<-|[]]]|[<-|[<-|[]]]]; (split; [reflexivity|]; split; [reflexivity|]; intros r [<-|[]]; reflexivity)|].
  assert (file_coords g = file_coords (nth 0 fm_exact dfile) \/ file_coords g = file_coords (nth 1 fm_exact dfile)) as C
    by (destruct I as [[<-|[<-|[]]]|[<-|[<-|[]]]]; auto).
  split; [|split].
  - apply (NoDup_count_occ' (fun a b : Z * Z => ltac:(repeat decide equality))). intros x I'.
    destruct C as [C|C]; rewrite C in I' |- *; cbn in I'; repeat (destruct I' as [<-|I']; [vm_compute; reflexivity|]); destruct I'.
  - intros r c I'. destruct C as [C|C]; rewrite C in I'; cbn in I'; repeat (destruct I' as [I'|I']; [injection I' as <- <-; lia|]); destruct I'.
  - intros x I'. destruct C as [C|C]; rewrite C in I'; cbn in I'; repeat (destruct I' as [<-|I']; [reflexivity|]); destruct I'.
Qed.
Definition fm_beta (j : nat) : Z := match j with 1%nat => 1%Z | _ => 0%Z end.
Lemma fm_shows : shows 0 0 fm_field fm_beta fm_exact.
Proof.
  intros j g x p Eg Ex. destruct j as [|[|j]]; [| |destruct j; discriminate Eg]; injection Eg as <-; unfold file_point in Ex;
    do 24 (destruct p as [|p]; [injection Ex as <-; vm_compute; discriminate|]); destruct p; discriminate Ex.
Qed.
Lemma fm_near : Forall2 (near_file (1 # 100000)) fm_files fm_exact.
Proof.
  assert (forall g, In g fm_exact -> near_file (1 # 100000)
    (TileFile (tf_points g) (tf_tile g) (map (map rnd32) (tf_uw g)) (map rnd32 (tf_offset g))) g) as H.
  { intros g I. split; [reflexivity|]. split; [reflexivity|]. intros b p. destruct I as [<-|[<-|[]]];
      (destruct b as [|b]; [do 24 (destruct p as [|p]; [vm_compute; discriminate|]); destruct p; vm_compute; discriminate|]);
      destruct b, p; vm_compute; discriminate. }
  constructor; [apply H; now left|]. constructor; [apply H; right; now left|]. constructor.
Qed.
Lemma fm_within : phases_within 200 1 fm_files /\ phases_within 200 1 fm_exact.
Proof.
  split; intros g b p [<-|[<-|[]]] Hb Hp; (destruct b as [|b]; [|lia]); cbn in Hp;
    do 24 (destruct p as [|p]; [vm_compute; discriminate|]); lia.
Qed.

Lemma fm_whole : whole_cycles 1 fm_exact.
Proof.
  intros g g' x p q b I I' P P' Hb. assert (b = 0%nat) as -> by lia.
  apply In_nth_error in I as (i & I), I' as (j & J).
  pose proof (fm_shows i g x p I P) as S. pose proof (fm_shows j g' x q J P') as S'.
  apply Qabs_Qle_condition in S, S'. exists (fm_beta j - fm_beta i)%Z. rewrite inject_Z_sub.
  set (a := inject_Z (fm_beta i)) in *. set (c := inject_Z (fm_beta j)) in *. clearbody a c.
  assert (twopi * (c - a) == twopi * c - twopi * a) as -> by ring. lra.
Qed.

Example C66_overlaps_nonvacuous :
  compute_phasediff_deciles_fl rnd32 rnd64 ex_comps 11 fm_files ex_set = Ok fm_overlaps /\ fm_files <> fm_exact.
Proof.
  split; [|vm_compute; discriminate].
  assert (compute_phasediff_deciles ex_comps 11 fm_exact ex_set = Ok fm_overlaps) as <- by (vm_compute; reflexivity).
  apply (C66_overlaps rnd32 rnd64 (pow2 (-(24))) (pow2 (-(53))) fm_files fm_exact ex_set 1 200 (1 # 100000) 3 12);
    try (rewrite ?pow2_24, ?pow2_53; lra).
  - exact rnd32_rounding.
  - exact rnd64_rounding.
  - exact fm_near.
  - intros g I. now apply fm_points; left.
  - intros g I. now apply fm_points; right.
  - reflexivity.
  - intros [|[|n]] Hn; [reflexivity|reflexivity|cbn in Hn; lia].
  - intros g I. now apply fm_points; right.
  - lia.
  - apply fm_within.
  - exact fm_whole.
Qed.

Lemma fm_recorded : recorded_files fm_overlaps fm_files.
Proof.
  enough (describes_files fm_overlaps fm_files) as H by (intros ts E; apply (H ts E)).
  apply (computed_describes ex_comps 11 fm_files ex_set fm_overlaps 3 12).
  - vm_compute. reflexivity.
  - intros n e. apply repeat_length.
  - reflexivity.
  - intros [|[|n]] B; [reflexivity|reflexivity|cbn in B; lia].
  - intros g I. destruct (fm_points g (or_introl I)) as (-> & _). apply (ex_file_ok (nth 0 ex_files dfile)). now left.
  - intros g I. now apply fm_points; left.
  - lia.
  - intros [|[|n]] x B I; [| |cbn in B; lia]; cbn in I; repeat (destruct I as [<-|I]; [unfold has_pixel; cbn; lia|]); destruct I.
  - intros i j B _. assert (i = 0 /\ j = 1)%nat as [-> ->] by (cbn in B; lia). vm_compute. discriminate.
Qed.

(** The hypotheses of C66_aligned and C66_total hold; the merged phase is that of the
    field, without the cycle, everywhere. *)
Example C66_aligned_nonvacuous : exists r,
  merge_band_fl rnd32 rnd64 fm_solve fm_overlaps [[1]; [0]]%nat 2 [[0; 1]] (3, 12)%Z fm_files 0 = Ok r /\
  forall x, in_shape (3, 12)%Z x = true -> exists y, pixel r x = Some y /\ Qabs (y - fm_field x) <= 1 # 1000.
Proof.
  set (u := pow2 (-(24))). assert (u == 1 # 16777216) as Eu by exact pow2_24.
  assert (rounding rnd32 u) as Hl by exact rnd32_rounding.
  assert (pow2 (-(53)) <= u) as Hv by (rewrite Eu, pow2_53; lra).
  assert (shows (1 # 100000) 0 fm_field fm_beta fm_files) as Hsh.
  { intros j g x p Eg P. pose proof fm_near as Hn. unfold fm_files in Eg. rewrite nth_error_map in Eg.
    destruct (nth_error fm_exact j) as [g0|] eqn:E0; [|discriminate Eg]. injection Eg as <-.
    pose proof (fm_shows j g0 x p E0 P) as S. apply Qabs_Qle_condition in S.
    assert (In g0 fm_exact) as I by (eapply nth_error_In; eauto).
    assert (near_file (1 # 100000) (TileFile (tf_points g0) (tf_tile g0) (map (map rnd32) (tf_uw g0)) (map rnd32 (tf_offset g0))) g0) as (_ & _ & D).
    { inversion_clear Hn as [|? ? ? ? D1 Hn']. inversion_clear Hn' as [|? ? ? ? D2 _]. destruct I as [<-|[<-|[]]]; assumption. }
    specialize (D O p). apply Qabs_Qle_condition in D. apply Qabs_Qle_condition. lra. }
  assert (forall j, (j < length fm_files)%nat -> nth j (nth 0 [[0; 1]] []) 0 == inject_Z (fm_beta j)) as Hbulk.
  { intros [|[|j]] Hj; [reflexivity|reflexivity|cbn in Hj; lia]. }
  assert (forall g x, In g fm_files -> In x (file_coords g) -> - 200 <= fm_field x <= 200) as HG.
  { intros g x I Ix. destruct (fm_points g (or_introl I)) as (_ & _ & _ & Gr & _). destruct x as [a c]. destruct (Gr a c Ix) as [Ba Bc].
    unfold fm_field. cbn [fst snd]. assert (inject_Z a <= 3 /\ 0 <= inject_Z a) as [] by (split; [change 3 with (inject_Z 3)|change 0 with (inject_Z 0)]; apply inject_Z_le_iff; lia).
    assert (inject_Z c <= 12 /\ 0 <= inject_Z c) as [] by (split; [change 12 with (inject_Z 12)|change 0 with (inject_Z 0)]; apply inject_Z_le_iff; lia).
    unfold Qdiv. change (/ 3) with (1 # 3). change (/ 7) with (1 # 7). lra. }
  assert (overlap_at_most 2 fm_files) as HN.
  { intros x. unfold fm_files, fm_exact. cbn [map filter]. destruct (existsb _ _), (existsb _ _); cbn [length]; lia. }
  assert (forall g, In g fm_files -> tile_bands 1 g) as Htb by (intros g I; now apply fm_points; left).
  assert (forall g, In g fm_files -> NoDup (file_coords g)) as Hnd by (intros g I; now apply fm_points; left).
  assert (inject_Z (Z.of_nat 2) * u <= 1 # 100) as Hun by (rewrite Eu; vm_compute; discriminate).
  assert (u * (200 + 2) <= 1 # 100) as HuR by (rewrite Eu; lra).
  assert (2 * u * inject_Z (Z.of_nat 2) * (200 + 10 * 1) <= 1 # 10) as Hh by (rewrite Eu; vm_compute; discriminate).
  assert (drift 1 (2 * u * inject_Z (Z.of_nat 2) * (200 + 10 * 1)) (length (degrees 2)) ((1 # 100000) + 6 * u * (200 + 1)) <= 1) as Hdr.
  { change (length (degrees 2)) with 1%nat. cbn [drift]. rewrite Eu. vm_compute. discriminate. }
  assert (u <= 1 # 1000) as Hu by (rewrite Eu; lra).
  destruct (C66_total rnd32 rnd64 u (pow2 (-(53))) fm_solve 1 fm_files fm_overlaps 2 200 fm_field fm_beta 1 0 [[0; 1]] (1 # 100000) 2
    Hl rnd64_rounding Hu Hv ltac:(lra) fm_amplifies fm_recorded Hnd HN ltac:(lia) Htb Hsh Hbulk ltac:(lra) ltac:(lra) HG (proj1 fm_within) Hun HuR Hh Hdr
    [[1]; [0]]%nat (3, 12)%Z fm_answers ltac:(reflexivity) ltac:(cbn; lia) ltac:(cbn; lia) ltac:(intros g x I; now apply fm_points; left)) as (r & Er).
  exists r. split; [exact Er|]. intros x Hx.
  destruct (C66_aligned rnd32 rnd64 u (pow2 (-(53))) fm_solve 1 fm_files fm_overlaps 2 200 fm_field fm_beta 1 0 [[0; 1]] (1 # 100000) 2
    Hl rnd64_rounding Hu Hv ltac:(lra) fm_amplifies fm_recorded Hnd HN ltac:(lia) Htb Hsh Hbulk ltac:(lra) ltac:(lra) HG (proj1 fm_within) Hun HuR Hh Hdr
    [[1]; [0]]%nat (3, 12)%Z r x ltac:(reflexivity) Hx Er) as [[No _]|(j & g & p & y & _ & _ & _ & E1 & _ & E2)].
  - exfalso. destruct x as [a c]. unfold in_shape in Hx. cbn [fst snd] in Hx.
    assert (forall k, (0 <= k < 12)%Z -> In k (map Z.of_nat (seq 0 12))) as Ik.
    { intros k Hk. apply in_map_iff. exists (Z.to_nat k). split; [lia|apply in_seq; lia]. }
    assert (0 <= c < 12)%Z as Hc by lia. specialize (Ik c Hc). clear Hc.
    assert (a = 0 \/ a = 1 \/ a = 2)%Z as [->|[->| ->]] by lia.
    + apply (No (nth 0 fm_files dfile) ltac:(now left)). cbn in Ik |- *. repeat (destruct Ik as [<-|Ik]; [tauto|]). destruct Ik.
    + apply (No (nth 0 fm_files dfile) ltac:(now left)). cbn in Ik |- *. repeat (destruct Ik as [<-|Ik]; [tauto|]). destruct Ik.
    + apply (No (nth 1 fm_files dfile) ltac:(right; now left)). cbn in Ik |- *. repeat (destruct Ik as [<-|Ik]; [tauto|]). destruct Ik.
  - exists y. split; [exact E1|]. eapply Qle_trans; [exact E2|]. rewrite Eu. lra.
Qed.

(** Two tiles of one pixel, a cycle apart; the second one has been corrected. *)
Example C66_congruent_nonvacuous :
  let g := TileFile [(0, 0)%Z] (BBox 0 0 1 1) [] [] in
  let ts := [FTile g [1] [0]; FTile g [rnd32 (1 + twopi)] [rnd32 (- twopi)]] in
  exists r y k, merged_band_fl rnd32 ts (1, 1)%Z = Ok r /\ pixel r (0, 0)%Z = Some y /\
    Qabs (y - (rnd32 (1 + twopi) - twopi * inject_Z k)) <= 1 # 100000 /\ Qabs (y - 1) <= twopi * (1 # 2) + (1 # 1000).
Proof.
  intros g ts. set (u := pow2 (-(24))). assert (u == 1 # 16777216) as Eu by exact pow2_24.
  destruct (merged_band_fl rnd32 ts (1, 1)%Z) as [r|] eqn:Er; [|discriminate Er]. exists r.
  destruct (C66_congruent rnd32 u ts (1, 1)%Z r (0, 0)%Z 1 (1 # 2000) 10 2 rnd32_rounding ltac:(rewrite Eu; lra) Er ltac:(reflexivity)
    ltac:(cbn; lia) ltac:(rewrite Eu; vm_compute; discriminate)) with (j := 1%nat) (t := FTile g [rnd32 (1 + twopi)] [rnd32 (- twopi)]) (p := 0%nat)
    as (y & k & E1 & E2 & E3).
  - intros t [<-|[<-|[]]]; (split; [constructor; [intros []|constructor]|split; reflexivity]).
  - lra.
  - lra.
  - intros t [|p] [<-|[<-|[]]] P; [vm_compute; repeat split; discriminate..|destruct p; discriminate P|destruct p; discriminate P].
  - reflexivity.
  - reflexivity.
  - intros [|[|j]] t Hj E; [lia|lia|destruct j; discriminate E].
  - exists y, k. split; [reflexivity|]. split; [exact E1|]. split.
    + eapply Qle_trans; [exact E2|]. rewrite Eu. lra.
    + eapply Qle_trans; [exact E3|]. assert ((30 + 4 * inject_Z (Z.of_nat 2)) * u * (10 + 1) <= 1 # 2000) by (rewrite Eu; vm_compute; discriminate). lra.
Qed.

(** Three points in a row with the ends on the mask. *)
Example C66_harmonic_nonvacuous :
  let solve := fun (cs : list (Z * Z)) mask xf =>
    match mask, xf with [true; false; true], [a; _; b] => Ok [(a + b) / 2] | _, _ => Err ValueError end in
  amplifies 1 solve /\ solve [] [true; false; true] [1; 0; 5] = Ok [6 / 2].
Proof.
  intros solve. split; [|reflexivity]. apply C66_harmonic. intros cs mask xf x E. unfold solve in E.
  destruct mask as [|[] [|[] [|[] [|]]]]; try discriminate E. destruct xf as [|a [|m [|c [|]]]]; try discriminate E. injection E as <-.
  split; [reflexivity|]. split; [reflexivity|]. exists [(0, 1); (1, 2)]%nat. split; [intros l [<-|[<-|[]]]; cbn; lia|]. split.
  - intros [|[|[|i]]] Hi; [exists O|exists O|exists 2%nat|cbn in Hi; lia].
    + split; [reflexivity|constructor].
    + split; [reflexivity|]. apply reach_step with 1%nat; [constructor|right; now left].
    + split; [reflexivity|constructor].
  - intros [|[|[|i]]] Hi; try discriminate Hi; [|destruct i; discriminate Hi]. unfold net. cbn. field.
Qed.

Print Assumptions C66_unrounded.
Print Assumptions C66_overlaps.
Print Assumptions C66_congruent.
Print Assumptions C66_aligned.
Print Assumptions C66_total.
Print Assumptions C66_harmonic.
