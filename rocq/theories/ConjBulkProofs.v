(** Negating all differences negates the bulk offsets. *)
From Verif Require Import Base BaseLemmas PoolProofs GraphModel TileModel TileSpec OverlapModel OverlapSpec OverlapProofs BulkModel BulkSpec BulkProofs
  MergeModel MergeSpec ShiftSpec InvariantProofs ConjSpec ConjProofs.
From Coq Require Import String.
From Coq Require Import List ZifyBool Lqa.
Import ListNotations.
Set Default Goal Selector "!".
Local Open Scope nat_scope.

(** ** Turned solutions *)
Lemma swap_pairs_len : forall n l, length l <= n -> length (swap_pairs l) = length l.
Proof. induction n as [|n IH]; intros [|a [|b l]] B; cbn in *; auto; try lia. rewrite IH; lia. Qed.
Lemma swap_pairs_nth : forall k l, 2 * k + 1 < length l ->
  nth (2 * k) (swap_pairs l) 0%Z = nth (2 * k + 1) l 0%Z /\ nth (2 * k + 1) (swap_pairs l) 0%Z = nth (2 * k) l 0%Z.
Proof.
  induction k as [|k IH]; intros [|a [|b l]] B; cbn [length] in B; try lia; [cbn; auto|].
  replace (2 * S k) with (S (S (2 * k))) by lia. cbn [swap_pairs nth Nat.add]. apply IH. lia.
Qed.
Lemma turn_len npts x : length (turn npts x) = length x.
Proof. unfold turn. rewrite app_length, map_length, (swap_pairs_len _ _ (Nat.le_refl _)), firstn_length, skipn_length. lia. Qed.
Lemma turn_low npts x i : i < npts -> npts <= length x -> nth i (turn npts x) 0%Z = (- nth i x 0)%Z.
Proof.
  intros B L. unfold turn. rewrite app_nth1 by (rewrite map_length, firstn_length; lia). rewrite nth_opp. f_equal.
  rewrite <- (firstn_skipn npts x) at 2. rewrite app_nth1; [reflexivity|]. rewrite firstn_length. lia.
Qed.
Lemma turn_high npts x k : npts + 2 * k + 1 < length x ->
  flow_p npts (turn npts x) k = flow_n npts x k /\ flow_n npts (turn npts x) k = flow_p npts x k.
Proof.
  intros B. unfold flow_p, flow_n, turn. rewrite !app_nth2 by (rewrite map_length, firstn_length; lia).
  rewrite map_length, firstn_length. replace (Nat.min npts (length x)) with npts by lia.
  replace (npts + 2 * k - npts) with (2 * k) by lia. replace (npts + 2 * k + 1 - npts) with (2 * k + 1) by lia.
  destruct (swap_pairs_nth k (skipn npts x)) as [-> ->]; [rewrite skipn_length; lia|].
  assert (forall i, nth i (skipn npts x) 0%Z = nth (npts + i) x 0%Z) as E.
  { intros i. rewrite <- (firstn_skipn npts x) at 2. rewrite app_nth2 by (rewrite firstn_length; lia). rewrite firstn_length. f_equal. lia. }
  rewrite !E. replace (npts + (2 * k + 1)) with (npts + 2 * k + 1) by lia. auto.
Qed.

Section Turn.
  Variables (npts : nat) (olaps : list (nat * nat)) (pins : list nat).
  Hypothesis Hol : forall p, In p olaps -> fst p < npts /\ snd p < npts.
  Hypothesis Hpin : forall v, In v pins -> v < npts.

  Lemma turn_feasible off x : mip_feasible (offsets_mip npts olaps off pins) x -> mip_feasible (offsets_mip npts olaps (map Z.opp off) pins) (turn npts x).
  Proof using Hol Hpin.
    rewrite !feasible_iff. intros (L & N & F & M & P). rewrite turn_len. split; [exact L|]. split; [|split; [|split]].
    - intros i B. rewrite turn_low by lia. specialize (N i B). lia.
    - intros k B. destruct (turn_high npts x k) as [-> ->]; [lia|]. destruct (F k B). auto.
    - intros k B. destruct (turn_high npts x k) as [-> ->]; [lia|]. specialize (M k B). unfold misfit in *.
      destruct (Hol _ (nth_In olaps (0, 0) B)) as [B1 B2]. rewrite !turn_low by lia. rewrite nth_opp. lia.
    - intros v I. pose proof (Hpin v I). rewrite turn_low by lia. rewrite (P v I). lia.
  Qed.
  Lemma turn_obj off off' x : length x = npts + 2 * length olaps ->
    lin_val (turn npts x) (mip_obj (offsets_mip npts olaps off pins)) = lin_val x (mip_obj (offsets_mip npts olaps off' pins)).
  Proof using.
    intros L. rewrite !obj_val. apply sumZ_map_ext. intros k I. apply in_seq in I. destruct (turn_high npts x k) as [-> ->]; lia.
  Qed.
  Lemma mip_ext off off' : (forall k, k < length olaps -> nth k off 0%Z = nth k off' 0%Z) -> offsets_mip npts olaps off pins = offsets_mip npts olaps off' pins.
  Proof using.
    intros H. unfold offsets_mip. f_equal. f_equal. apply map_ext_in. intros k I. apply in_seq in I. rewrite (H k) by lia. reflexivity.
  Qed.
End Turn.

(** ** A solver for the turned problems *)
Definition mip_dec (a b : mip) : {a = b} + {a <> b}.
Proof. repeat decide equality. Defined.
Definition read_npts (p : mip) : nat := length (filter (fun b => (fst b <? 0)%Z) (mip_bounds p)).
Definition read_olaps (p : mip) : list ((nat * nat) * Z) :=
  flat_map (fun e => match fst e with [(t2, _); (t1, _); _; _] => [((t1, t2), snd e)] | _ => [] end) (mip_eqs p).
Definition read_pins (p : mip) : list nat := flat_map (fun e => match fst e with [(v, _)] => [v] | _ => [] end) (mip_eqs p).
Definition in_range (n : nat) (olaps : list (nat * nat)) (pins : list nat) : bool :=
  forallb (fun p => (fst p <? n) && (snd p <? n)) olaps && forallb (fun v => v <? n) pins.
Definition turned (solve : mip -> option (list Z)) (p : mip) : option (list Z) :=
  let n := read_npts p in let ol := map fst (read_olaps p) in let off := map snd (read_olaps p) in let pins := read_pins p in
  if in_range n ol pins then
    if mip_dec p (offsets_mip n ol off pins) then option_map (turn n) (solve (offsets_mip n ol (map Z.opp off) pins)) else solve p
  else solve p.

Lemma read_back n olaps off pins : let p := offsets_mip n olaps off pins in
  read_npts p = n /\ read_olaps p = map (fun k => (nth k olaps (0, 0), nth k off 0%Z)) (seq 0 (length olaps)) /\ read_pins p = pins.
Proof.
  cbv zeta. split; [|split].
  - unfold read_npts, offsets_mip. cbn [mip_bounds]. rewrite filter_app, app_length.
    assert (forall m, length (filter (fun b : Z * Z => (fst b <? 0)%Z) (repeat (- int32_max, int32_max)%Z m)) = m) as ->.
    { induction m as [|m IH]; [reflexivity|]. cbn [repeat filter]. replace (fst (- int32_max, int32_max) <? 0)%Z with true by reflexivity. cbn [length]. now rewrite IH. }
    assert (filter (fun b : Z * Z => (fst b <? 0)%Z) (flat_map (fun _ : nat * nat => [(0, int32_max)%Z; (0, int32_max)%Z]) olaps) = []) as ->; [|cbn; lia].
    induction olaps as [|p o IH]; [reflexivity|]. cbn [flat_map app filter fst]. exact IH.
  - unfold read_olaps, offsets_mip. cbn [mip_eqs]. rewrite flat_map_app.
    assert (forall l, flat_map (fun e : list (nat * Z) * Z => match fst e with [(t2, _); (t1, _); _; _] => [((t1, t2), snd e)] | _ => [] end) (map (fun v : nat => ([(v, 1%Z)], 0%Z)) l) = []) as ->.
    { induction l as [|v l IH]; [reflexivity|exact IH]. }
    rewrite app_nil_r. generalize (seq 0 (length olaps)). induction l as [|k l IH]; [reflexivity|]. cbn [map flat_map].
    rewrite IH. destruct (nth k olaps (0, 0)) as [t1 t2]. reflexivity.
  - unfold read_pins, offsets_mip. cbn [mip_eqs]. rewrite flat_map_app.
    assert (forall l, flat_map (fun e : list (nat * Z) * Z => match fst e with [(v, _)] => [v] | _ => [] end)
      (map (fun k => let '(t1, t2) := nth k olaps (0, 0) in ([(t2, 1%Z); (t1, (-1)%Z); (n + 2 * k, 1%Z); (n + 2 * k + 1, (-1)%Z)], nth k off 0%Z)) l) = []) as ->.
    { induction l as [|k l IH]; [reflexivity|]. cbn [map flat_map]. rewrite IH. destruct (nth k olaps (0, 0)). reflexivity. }
    cbn [app]. induction pins as [|v l IH]; [reflexivity|]. cbn [map flat_map app fst]. now rewrite IH.
Qed.
Lemma in_range_spec n olaps pins : in_range n olaps pins = true <-> (forall p, In p olaps -> fst p < n /\ snd p < n) /\ (forall v, In v pins -> v < n).
Proof.
  unfold in_range. rewrite andb_true_iff, !forallb_forall. split; intros [A B]; split; intros x I.
  - specialize (A x I). lia.
  - specialize (B x I). lia.
  - specialize (A x I). lia.
  - specialize (B x I). lia.
Qed.

Lemma turned_turns solve : turns solve (turned solve).
Proof.
  intros n olaps off pins Ho Hp. unfold turned. destruct (read_back n olaps (map Z.opp off) pins) as (-> & -> & ->).
  rewrite !map_map. cbn [fst snd].
  assert (map (fun k => nth k olaps (0, 0)) (seq 0 (length olaps)) = olaps) as Eo.
  { apply (nth_ext _ _ (0, 0) (0, 0)); [now rewrite map_length, seq_length|]. intros k B. rewrite map_length, seq_length in B.
    rewrite (map_nth' _ _ _ 0) by now rewrite seq_length. now rewrite seq_nth. }
  rewrite Eo, (proj2 (in_range_spec n olaps pins) (conj Ho Hp)).
  assert (forall h : Z -> Z, forall k, k < length olaps -> nth k (map (fun k => h (nth k (map Z.opp off) 0%Z)) (seq 0 (length olaps))) 0%Z = h (- nth k off 0)%Z) as V.
  { intros h k B. rewrite (map_nth' _ _ _ 0) by now rewrite seq_length. rewrite seq_nth, nth_opp by auto. reflexivity. }
  destruct (mip_dec _ _) as [_|N].
  - f_equal. f_equal. apply mip_ext. intros k B. rewrite (V Z.opp k B). lia.
  - exfalso. apply N. apply mip_ext. intros k B. rewrite (V (fun z => z) k B). apply nth_opp.
Qed.
Lemma turned_sound solve : mip_sound solve -> mip_sound (turned solve).
Proof.
  intros Hs p x. unfold turned. set (n := read_npts p). set (ol := map fst (read_olaps p)). set (off := map snd (read_olaps p)). set (pins := read_pins p).
  destruct (in_range n ol pins) eqn:R; [|apply Hs]. apply in_range_spec in R as [Ro Rp]. destruct (mip_dec _ _) as [E|_]; [|apply Hs].
  destruct (solve _) as [y|] eqn:Ey; [|discriminate]. cbn [option_map]. intros X. injection X as <-. destruct (Hs _ _ Ey) as [Fy Oy]. rewrite E.
  pose proof (turn_feasible n ol pins Ro Rp _ _ Fy) as Fx. rewrite opp_opp in Fx. split; [exact Fx|].
  intros z Fz. pose proof (turn_feasible n ol pins Ro Rp _ _ Fz) as Fz'. specialize (Oy _ Fz').
  assert (forall o w, mip_feasible (offsets_mip n ol o pins) w -> length w = n + 2 * length ol) as Lw by (intros o w Fw; now apply feasible_iff in Fw).
  rewrite (turn_obj n ol pins off (map Z.opp off) y) by eauto. rewrite (turn_obj n ol pins (map Z.opp off) off z) in Oy by eauto. exact Oy.
Qed.
Lemma turned_complete solve : mip_complete solve -> mip_complete (turned solve).
Proof.
  intros Hc p [x Fx]. unfold turned. set (n := read_npts p). set (ol := map fst (read_olaps p)). set (off := map snd (read_olaps p)). set (pins := read_pins p).
  destruct (in_range n ol pins) eqn:R; [|apply Hc; eauto]. apply in_range_spec in R as [Ro Rp]. destruct (mip_dec _ _) as [E|_]; [|apply Hc; eauto].
  rewrite E in Fx. pose proof (Hc _ (ex_intro _ _ (turn_feasible n ol pins Ro Rp _ _ Fx))) as K. destruct (solve _); [discriminate|contradiction].
Qed.

(** ** The offsets of one band *)
Lemma firstn_turn npts x : npts <= length x -> firstn npts (turn npts x) = map Z.opp (firstn npts x).
Proof.
  intros L. unfold turn. rewrite firstn_app, map_length, firstn_length. replace (npts - Nat.min npts (length x)) with 0 by lia.
  cbn [firstn]. rewrite app_nil_r. apply firstn_all2. rewrite map_length, firstn_length. lia.
Qed.
Lemma pinned_lt labels counts pins v : pinned labels counts = Ok pins -> In v pins -> v < length labels.
Proof.
  unfold pinned. destruct labels as [|l0 ls] eqn:El; [discriminate|]. rewrite <- El. assert (0 < length labels) as L0 by (rewrite El; cbn; lia).
  generalize (seq 0 (S (list_max labels))). intros l H I. apply map_res_nth in H as [Lp K]. apply (In_nth _ _ 0) in I as (k & Bk & <-). rewrite Lp in Bk.
  specialize (K k 0 0 Bk). cbv zeta in K. destruct (argmax _) as [a|] eqn:Ea; [|discriminate]. cbn [bind] in K. injection K as <-.
  set (conn := filter _ _) in *. destruct (Nat.lt_ge_cases a (length conn)) as [B|B].
  - pose proof (nth_In conn 0 B) as I. unfold conn at 2 in I. apply filter_In in I as [I _]. apply in_seq in I. lia.
  - rewrite nth_overflow by lia. exact L0.
Qed.
Section Bulk.
  Variables (solve solve' : mip -> option (list Z)).
  Hypothesis Hs : mip_sound solve.
  Hypothesis Ht : turns solve solve'.

  Lemma int_neg olaps labels off counts n v : solve_int_offsets solve olaps labels off counts = Ok (n, v) ->
    solve_int_offsets solve' olaps labels (map Z.opp off) counts = Ok (map Z.opp n, v).
  Proof using Hs Ht.
    unfold solve_int_offsets. destruct (existsb _ olaps) eqn:Ex; [discriminate|]. destruct (pinned labels counts) as [pins|] eqn:Ep; [|discriminate]. cbn [bind].
    assert (forall p, In p olaps -> fst p < length labels /\ snd p < length labels) as Ho.
    { intros p I. assert ((length labels <=? fst p) || (length labels <=? snd p) = false) as E; [|lia].
      apply not_true_iff_false. intros T. assert (existsb (fun p => (length labels <=? fst p) || (length labels <=? snd p)) olaps = true) by (apply existsb_exists; eauto). congruence. }
    assert (forall v, In v pins -> v < length labels) as Hp by (intros u I; eapply pinned_lt; eauto).
    cbv zeta. rewrite (Ht _ _ off _ Ho Hp). destruct (solve _) as [x|] eqn:Ey; [|discriminate]. cbn [option_map]. intros E. injection E as <- <-.
    destruct (Hs _ _ Ey) as [Fx _]. apply feasible_iff in Fx as [L _].
    rewrite firstn_turn by lia. f_equal. f_equal. now apply (turn_obj (length labels) olaps pins (map Z.opp off) off).
  Qed.
End Bulk.

Local Open Scope Q_scope.
Local Notation negs := (fun x y : Q => y == - x).
Lemma negs_opposite u u' : Forall2 negs u u' -> opposite u u'.
Proof.
  induction 1 as [|x y u u' E F [L IH]]; [split; [reflexivity|intros [|v]; reflexivity]|].
  split; [cbn; lia|]. intros [|v]; cbn [nth]; [exact E|apply IH].
Qed.
Lemma rows_opposite d d' : Forall2 opposite d d' -> opposite_rows d d'.
Proof.
  induction 1 as [|x y d d' E F [L IH]]; [split; [reflexivity|intros [|t]; split; try reflexivity; intros [|v]; reflexivity]|].
  split; [cbn; lia|]. intros [|t]; cbn [nth]; [exact E|apply IH].
Qed.
Lemma injects_neg l : Forall2 negs (map inject_Z l) (map inject_Z (map Z.opp l)).
Proof. induction l as [|x l IH]; cbn [map]; constructor; auto. now rewrite inject_Z_opp. Qed.

Lemma dot_neg u : forall v v', Forall2 negs v v' -> dotQ u v' == - dotQ u v.
Proof.
  induction u as [|x u IH]; intros v v' F; [reflexivity|]. destruct F as [|a b v v' E F]; [reflexivity|].
  rewrite !dotQ_cons, E, (IH _ _ F). ring.
Qed.
Lemma l2_neg lsq amat b b' x r : odd_solver lsq -> Forall2 negs b b' -> l2_min lsq amat b = Ok (x, r) ->
  exists x' r', l2_min lsq amat b' = Ok (x', r') /\ Forall2 negs x x' /\ Forall2 negs r r'.
Proof.
  intros Ho F. unfold l2_min. rewrite <- (Forall2_len _ _ _ F). destruct (negb _); [discriminate|]. cbv zeta. intros E. injection E as <- <-.
  do 2 eexists. split; [reflexivity|]. pose proof (Ho amat _ _ F) as Fx. split; [exact Fx|].
  unfold subQ, mat_vec. revert Fx. generalize (lsq amat b), (lsq amat b'). intros x x' Fx.
  revert amat. induction F as [|y y' b b' E F IH]; intros [|row amat]; cbn [map combine]; constructor.
  - cbn [fst snd]. rewrite E, (dot_neg row _ _ Fx). ring.
  - apply IH.
Qed.
Lemma abs_neg r r' : Forall2 negs r r' -> sumQ (map Qabs r) == sumQ (map Qabs r').
Proof. induction 1 as [|x y r r' E F IH]; [reflexivity|]. unfold sumQ in *. cbn [map fold_right]. rewrite IH, E, Qabs_opp. reflexivity. Qed.
Lemma Forall2_at u u' n : Forall2 negs u u' -> nth n u' 0 == - nth n u 0.
Proof. intros F. revert n. induction F as [|x y u u' E F IH]; intros [|n]; cbn [nth]; auto; reflexivity. Qed.

Lemma bulk_neg solve solve' lsq method f f' t arr O R : mip_sound solve -> turns solve solve' -> odd_solver lsq -> opposite_overlaps f f' ->
  get_bulk_offsets solve lsq method f t arr = Ok (O, R) ->
  exists O' R', get_bulk_offsets solve' lsq method f' t arr = Ok (O', R') /\ opposite_rows O O' /\ Forall2 Qeq R R'.
Proof.
  intros Hs Ht Ho (Fg & Ec & Eo). unfold get_bulk_offsets. rewrite Ec, Eo.
  set (look := fun gs (p : nat * nat) => match find (fun g => ((fst (og_pair g) =? fst p) && (snd (og_pair g) =? snd p))%nat) gs with Some g => Ok g | None => Err KeyError end).
  fold (look (of_groups f)). fold (look (of_groups f')).
  assert (forall p, match look (of_groups f) p, look (of_groups f') p with Ok g, Ok g' => opposite_group g g' | Err e, Err e' => e = e' | _, _ => False end) as Lk.
  { intros p. unfold look. induction Fg as [|g g' a b K F IH]; [reflexivity|]. cbn [find]. rewrite (proj1 K). destruct (_ && _)%bool; [exact K|exact IH]. }
  destruct (map_res (look (of_groups f)) (of_overlaps f)) as [gs|] eqn:Eg; [|discriminate]. cbn [bind].
  assert (exists gs', map_res (look (of_groups f')) (of_overlaps f) = Ok gs' /\ Forall2 opposite_group gs gs') as (gs' & Eg' & F).
  { revert gs Eg. generalize (of_overlaps f). induction l as [|p ps IH]; cbn [map_res]; intros gs Eg; [injection Eg as <-; exists []; split; [reflexivity|constructor]|].
    specialize (Lk p). destruct (look (of_groups f) p) as [g|]; [|discriminate]. cbn [bind] in Eg. destruct (map_res _ ps) as [gs0|]; [|discriminate]. cbn [bind] in Eg. injection Eg as <-.
    destruct (look (of_groups f') p) as [g'|]; [|contradiction]. destruct (IH gs0 eq_refl) as (gs' & -> & F). cbn [bind]. eexists. split; [reflexivity|]. now constructor. }
  rewrite Eg'. cbn [bind]. set (med := fun g => map (fun row => nth 5 row 0%Z) (og_stats g)). fold (map med gs). fold (map med gs').
  assert (map med gs' = map (map Z.opp) (map med gs)) as Em.
  { clear -F. induction F as [|g g' gs gs' K F IH]; [reflexivity|]. cbn [map]. f_equal; [|exact IH]. destruct K as (_ & _ & _ & K). unfold med.
    induction K as [|r r' a b [L ->] K IH2]; [reflexivity|]. cbn [map]. f_equal; [|exact IH2].
    rewrite rev_nth by (rewrite map_length; lia). rewrite map_length, L. cbn [Nat.sub]. apply nth_opp. }
  rewrite Em. destruct (map med gs) as [|first rest] eqn:Emg; [discriminate|]. cbn [map]. rewrite map_length. cbv zeta.
  assert (forall ii, map (fun x => nth ii x 0%Z) (map Z.opp first :: map (map Z.opp) rest) = map Z.opp (map (fun x => nth ii x 0%Z) (first :: rest))) as Eb.
  { intros ii. change (map Z.opp first :: map (map Z.opp) rest) with (map (map Z.opp) (first :: rest)). rewrite !map_map. apply map_ext. intros l. apply nth_opp. }
  set (counts := map (count_valid arr) (tiles t)). generalize (seq 0 (length first)). intros bands.
  destruct (String.eqb method "integer").
  - destruct (map_res _ bands) as [sols|] eqn:Es; [|discriminate]. cbn [bind]. intros E. injection E as <- <-.
    assert (map_res (fun ii => solve_int_offsets solve' (of_overlaps f) (of_conn_comp f) (map (fun x => nth ii x 0%Z) (map Z.opp first :: map (map Z.opp) rest)) counts) bands
      = Ok (map (fun s => (map Z.opp (fst s), snd s)) sols)) as Es'.
    { revert sols Es. induction bands as [|ii l IH]; cbn [map_res]; intros sols Es; [injection Es as <-; reflexivity|].
      destruct (solve_int_offsets solve _ _ _ _) as [[n v]|] eqn:E1; [|discriminate]. cbn [bind] in Es. destruct (map_res _ l) as [s0|]; [|discriminate]. cbn [bind] in Es. injection Es as <-.
      pose proof (int_neg solve solve' Hs Ht _ _ _ _ _ _ E1) as E2. rewrite Eb. cbn [map] in E2 |- *. rewrite E2. cbn [bind]. pose proof (IH s0 eq_refl) as E3. cbn [map] in E3. rewrite E3. reflexivity. }
    cbn [map] in Es'. rewrite Es'. cbn [bind]. do 2 eexists. split; [reflexivity|]. rewrite !map_map. cbn [fst snd]. split.
    + apply rows_opposite. clear. induction sols as [|s l IH]; cbn [map]; constructor; [|exact IH]. apply negs_opposite, injects_neg.
    + clear. induction sols; cbn [map]; constructor; auto; reflexivity.
  - destruct (String.eqb method "L2"); [|discriminate]. unfold solve_l2_min. destruct (existsb _ _); [discriminate|].
    destruct (of_overlaps f) as [|p0 ol] eqn:Ef; [discriminate|]. rewrite <- Ef. set (cmat := map (diff_row (ntiles t)) (of_overlaps f)).
    destruct (map_res (l2_min lsq cmat) _) as [rs|] eqn:Er; [|discriminate]. cbn [bind].
    assert (exists rs', map_res (l2_min lsq cmat) (map (fun ii => map inject_Z (map (fun x => nth ii x 0%Z) (map Z.opp first :: map (map Z.opp) rest))) bands) = Ok rs' /\
      Forall2 (fun a b => Forall2 negs (fst a) (fst b) /\ Forall2 negs (snd a) (snd b)) rs rs') as (rs' & Er' & Fr).
    { revert rs Er. induction bands as [|ii l IH]; intros rs Er; cbn [map map_res] in Er |- *; [injection Er as <-; exists []; split; [reflexivity|constructor]|].
      destruct (l2_min lsq cmat _) as [[x r]|] eqn:E1 in Er; [|discriminate]. cbn [bind] in Er. match type of Er with context [map_res ?a ?b] => destruct (map_res a b) as [r0|] end; [|discriminate]. cbn [bind] in Er. injection Er as <-.
      pose proof (f_equal (map inject_Z) (Eb ii)) as Ebi. cbn [map] in Ebi. rewrite Ebi.
      destruct (l2_neg lsq cmat (map inject_Z (map (fun x => nth ii x 0%Z) (first :: rest))) (map inject_Z (map Z.opp (map (fun x => nth ii x 0%Z) (first :: rest)))) x r Ho (injects_neg _) E1) as (x' & r' & E2 & F1 & F2). cbn [map] in E2.
      cbn [map]. rewrite E2. cbn [bind]. destruct (IH r0 eq_refl) as (rs' & E3 & F3). cbn [map] in E3. rewrite E3. cbn [bind]. eexists. split; [reflexivity|]. constructor; auto. }
    cbn [map] in Er'. rewrite Er'. cbn [bind]. destruct (argmax counts) as [c|]; [|discriminate]. cbn [bind]. intros E. injection E as <- <-.
    do 2 eexists. split; [reflexivity|]. split.
    + apply rows_opposite. clear -Fr. induction Fr as [|a b rs rs' [K _] F IH]; cbn [map]; constructor; auto.
      apply negs_opposite. pose proof (Forall2_at _ _ c K) as Kc. revert Kc. generalize (nth c (fst a) 0), (nth c (fst b) 0). intros z z' Kc.
      induction K as [|x y u u' E K IH2]; cbn [map]; constructor; auto. rewrite E, Kc. ring.
    + clear -Fr. induction Fr as [|a b rs rs' [_ K] F IH]; cbn [map]; constructor; auto. now apply abs_neg.
Qed.
