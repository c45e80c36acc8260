(** Reg2DGraph: links, cycles, planarity. *)
From Verif Require Import Base BaseLemmas GraphModel GraphSpec GraphProofs Hop3Proofs.
From Coq Require Import ZifyBool.
Set Default Goal Selector "!".

Lemma idx_inj w i j i' j' : j < w -> j' < w -> i * w + j = i' * w + j' -> i = i' /\ j = j'.
Proof.
  intros H1 H2 H. assert (w <> 0) as Hw by lia.
  assert (i = i').
  { rewrite (Nat.div_unique (i * w + j) w i j) by lia. rewrite H.
    symmetry. apply (Nat.div_unique _ w i' j'); lia. }
  subst. lia.
Qed.

Lemma fill_ok {A} size (z : A) e rows : size = Z.of_nat (length rows) -> fill size z e rows = Ok rows.
Proof.
  intros ->. unfold fill. destruct (Z.ltb_spec (Z.of_nat (length rows)) 0); [lia|].
  rewrite Z.leb_refl, Nat2Z.id, Nat.sub_diag. cbn. now rewrite app_nil_r.
Qed.

Lemma reg2d_link_rows_length h w : length (reg2d_link_rows h w) = h * (w - 1) + (h - 1) * w.
Proof.
  unfold reg2d_link_rows. rewrite app_length, (flat_map_len (w - 1)), (flat_map_len w).
  - now rewrite !seq_length.
  - intros; now rewrite map_length, seq_length.
  - intros; now rewrite map_length, seq_length.
Qed.

Lemma reg2d_cycle_rows_length h w : length (reg2d_cycle_rows h w) = (h - 1) * (w - 1).
Proof.
  unfold reg2d_cycle_rows. rewrite (flat_map_len (w - 1)).
  - now rewrite seq_length.
  - intros; now rewrite map_length, seq_length.
Qed.

Definition reg2d_graph h w := Graph (h * w) (reg2d_link_rows h w) (reg2d_cycle_rows h w).

Lemma reg2d_ok h w : 1 <= h -> 1 <= w -> reg2d h w = Ok (reg2d_graph h w).
Proof.
  intros Hh Hw. unfold reg2d, reg2d_links, reg2d_cycles. cbv zeta.
  destruct h as [|h]; [lia|]. destruct w as [|w]; [lia|].
  rewrite !fill_ok; [reflexivity| |].
  - rewrite reg2d_cycle_rows_length. nia.
  - rewrite reg2d_link_rows_length. nia.
Qed.

Lemma reg2d_links_In h w a b :
  In (a, b) (reg2d_link_rows h w) <->
  exists i j, a = i * w + j /\
    ((b = a + 1 /\ i < h /\ j + 1 < w) \/ (b = a + w /\ i + 1 < h /\ j < w)).
Proof.
  unfold reg2d_link_rows. rewrite in_app_iff, !in_flat_map. split.
  - intros [(i & Hi & H)|(i & Hi & H)]; apply in_map_iff in H as (j & H & Hj);
      rewrite in_seq in Hi, Hj; injection H as <- <-; exists i, j; split; lia.
  - intros (i & j & -> & [(-> & H1 & H2)|(-> & H1 & H2)]); [left|right];
      exists i; rewrite in_seq; (split; [lia|]); apply in_map_iff; exists j;
      rewrite in_seq; split; auto; lia.
Qed.

(** Distinctness needs w >= 2, or no vertical link: for w = 1 see below. *)
Lemma reg2d_links_NoDup h w : 2 <= w \/ h <= 1 -> NoDup (reg2d_link_rows h w).
Proof.
  intros Hw. unfold reg2d_link_rows. apply NoDup_app_intro.
  - apply NoDup_flat_map; [apply seq_NoDup| |].
    + intros i _. apply NoDup_map_inj_in; [|apply seq_NoDup].
      intros x y _ _ E. injection E. lia.
    + intros i i' [a b] _ _ H H'. apply in_map_iff in H as (j & H & Hj), H' as (j' & H' & Hj').
      rewrite in_seq in Hj, Hj'. injection H as <- <-. injection H' as E _.
      destruct (idx_inj w i j i' j'); lia.
  - apply NoDup_flat_map; [apply seq_NoDup| |].
    + intros i _. apply NoDup_map_inj_in; [|apply seq_NoDup].
      intros x y _ _ E. injection E. lia.
    + intros i i' [a b] _ _ H H'. apply in_map_iff in H as (j & H & Hj), H' as (j' & H' & Hj').
      rewrite in_seq in Hj, Hj'. injection H as <- <-. injection H' as E _.
      destruct (idx_inj w i j i' j'); lia.
  - intros [a b] H H'. apply in_flat_map in H as (i & Hi & H), H' as (i' & Hi' & H').
    apply in_map_iff in H as (j & H & Hj), H' as (j' & H' & Hj').
    rewrite in_seq in Hi, Hj, Hi', Hj'. injection H as <- <-. injection H' as E E'.
    lia.
Qed.

(** With a single column the horizontal part is empty. *)
Lemma reg2d_links_NoDup' h w : NoDup (reg2d_link_rows h w).
Proof.
  destruct (le_lt_dec w 1) as [Hw|Hw]; [|apply reg2d_links_NoDup; lia].
  unfold reg2d_link_rows. replace (w - 1) with 0 by lia. cbn [seq map].
  replace (flat_map (fun _ : nat => []) (seq 0 h)) with (@nil (nat * nat))
    by (induction (seq 0 h); auto).
  cbn [app].
  apply NoDup_flat_map; [apply seq_NoDup| |].
  - intros i _. apply NoDup_map_inj_in; [|apply seq_NoDup].
    intros x y _ _ E. injection E. lia.
  - intros i i' [a b] _ _ H H'. apply in_map_iff in H as (j & H & Hj), H' as (j' & H' & Hj').
    rewrite in_seq in Hj, Hj'. injection H as <- <-. injection H' as E _.
    destruct (idx_inj w i j i' j'); lia.
Qed.

(** Links in terms of pixel rows and columns. *)
Lemma reg2d_links_px h w i j i' j' : i < h -> j < w -> i' < h -> j' < w ->
  In (i * w + j, i' * w + j') (reg2d_link_rows h w) <->
  (i' = i /\ j' = j + 1) \/ (i' = i + 1 /\ j' = j).
Proof.
  intros H1 H2 H3 H4. rewrite reg2d_links_In. split.
  - intros (r & c & E & [(E' & Hr & Hc)|(E' & Hr & Hc)]).
    + destruct (idx_inj w i j r c) as [-> ->]; try lia.
      destruct (idx_inj w i' j' r (c + 1)) as [-> ->]; lia.
    + destruct (idx_inj w i j r c) as [-> ->]; try lia.
      destruct (idx_inj w i' j' (r + 1) c) as [-> ->]; lia.
  - intros [[-> ->]|[-> ->]]; exists i, j; split; lia.
Qed.

Lemma px_of h w k : k < h * w -> exists i j, i < h /\ j < w /\ k = i * w + j.
Proof.
  intros H. assert (w <> 0) by nia. exists (k / w), (k mod w). repeat split.
  - apply Nat.div_lt_upper_bound; lia.
  - now apply Nat.mod_upper_bound.
  - rewrite (Nat.div_mod k w) at 1 by auto. lia.
Qed.

Lemma px_lt h w i j : i < h -> j < w -> i * w + j < h * w.
Proof. intros. nia. Qed.

(** * Sides *)
Lemma reg2d_sides_In h w a b :
  In (a, b) (all_sides (reg2d_graph h w)) <->
  exists i j, i + 1 < h /\ j + 1 < w /\
   ((a = i * w + j /\ b = i * w + w + j) \/
    (a = i * w + w + j /\ b = i * w + w + j + 1) \/
    (a = i * w + w + j + 1 /\ b = i * w + j + 1) \/
    (a = i * w + j + 1 /\ b = i * w + j)).
Proof.
  unfold all_sides, reg2d_graph. cbn [g_cycles]. unfold reg2d_cycle_rows. rewrite in_flat_map. split.
  - intros (c & Hc & H). apply in_flat_map in Hc as (i & Hi & Hc).
    apply in_map_iff in Hc as (j & <- & Hj). rewrite in_seq in Hi, Hj.
    exists i, j. split; [lia|]. split; [lia|].
    cbn [sides combine app In] in H. rewrite !pair_eq_iff in H. lia.
  - intros (i & j & Hi & Hj & H).
    exists [i * w + j; (i + 1) * w + j; (i + 1) * w + (j + 1); i * w + (j + 1)]. split.
    + apply in_flat_map. exists i. rewrite in_seq. split; [lia|]. apply in_map_iff. exists j.
      rewrite in_seq. split; [auto|lia].
    + cbn [sides combine app In]. rewrite !pair_eq_iff. lia.
Qed.

(** Sides in terms of pixels. *)
Lemma reg2d_sides_px h w i j i' j' : i < h -> j < w -> i' < h -> j' < w ->
  In (i * w + j, i' * w + j') (all_sides (reg2d_graph h w)) <->
  (i' = i + 1 /\ j' = j /\ j + 1 < w) \/ (i' + 1 = i /\ j' = j /\ 1 <= j)
  \/ (i' = i /\ j' = j + 1 /\ 1 <= i) \/ (i' = i /\ j' + 1 = j /\ i + 1 < h).
Proof.
  intros H1 H2 H3 H4. rewrite reg2d_sides_In. split.
  - intros (r & c & Hr & Hc & [[E E']|[[E E']|[[E E']|[E E']]]]).
    + destruct (idx_inj w i j r c), (idx_inj w i' j' (r + 1) c); lia.
    + destruct (idx_inj w i j (r + 1) c), (idx_inj w i' j' (r + 1) (c + 1)); lia.
    + destruct (idx_inj w i j (r + 1) (c + 1)), (idx_inj w i' j' r (c + 1)); lia.
    + destruct (idx_inj w i j r (c + 1)), (idx_inj w i' j' r c); lia.
  - intros [(-> & -> & H)|[(<- & -> & H)|[(-> & -> & H)|(-> & <- & H)]]].
    + exists i, j. lia.
    + exists i', (j - 1). lia.
    + exists (i - 1), j. assert (i * w = (i - 1) * w + w) by nia. lia.
    + exists i, j'. lia.
Qed.

Lemma reg2d_sides_NoDup h w : 2 <= w -> NoDup (all_sides (reg2d_graph h w)).
Proof.
  intros Hw. unfold all_sides, reg2d_graph. cbn [g_cycles]. unfold reg2d_cycle_rows.
  assert (forall (A B C : Type) (f : B -> list C) (g : A -> list B) l,
    flat_map f (flat_map g l) = flat_map (fun x => flat_map f (g x)) l) as FM.
  { intros A B C f g l. induction l; cbn; auto. now rewrite flat_map_app, IHl. }
  rewrite FM. apply NoDup_flat_map; [apply seq_NoDup| |].
  - intros i Hi. rewrite in_seq in Hi.
    assert (forall (A B C : Type) (f : B -> list C) (g : A -> B) l,
      flat_map f (map g l) = flat_map (fun x => f (g x)) l) as FM2.
    { intros A B C f g l. induction l; cbn; auto. now rewrite IHl. }
    rewrite FM2. apply NoDup_flat_map; [apply seq_NoDup| |].
    + intros j Hj. rewrite in_seq in Hj. cbn [sides combine app]. nodup_lia.
    + intros j j' [a b] Hj Hj' H H'. rewrite in_seq in Hj, Hj'.
      cbn [sides combine app In] in H, H'. rewrite !pair_eq_iff in H, H'. lia.
  - intros i i' [a b] Hi Hi' H H'. rewrite in_seq in Hi, Hi'.
    apply in_flat_map in H as (c & Hc & H), H' as (c' & Hc' & H').
    apply in_map_iff in Hc as (j & <- & Hj), Hc' as (j' & <- & Hj'). rewrite in_seq in Hj, Hj'.
    cbn [sides combine app In] in H, H'. rewrite !pair_eq_iff in H, H'.
    replace ((i + 1) * w) with (i * w + w) in * by lia.
    replace ((i' + 1) * w) with (i' * w + w) in * by lia.
    destruct H as [[<- <-]|[[<- <-]|[[<- <-]|[[<- <-]|[]]]]];
    destruct H' as [[E E']|[[E E']|[[E E']|[[E E']|[]]]]]; try lia;
    solve [ destruct (idx_inj w i j i' j'); lia
      | destruct (idx_inj w (i+1) j (i'+1) j'); lia
      | destruct (idx_inj w i (j+1) i' (j'+1)); lia ].
Qed.

Lemma reg2d_conn h w v : v < h * w -> reach (reg2d_link_rows h w) 0 v.
Proof.
  intros Hv. destruct (px_of h w v Hv) as (i & j & Hi & Hj & ->). clear Hv.
  assert (forall r, r < h -> reach (reg2d_link_rows h w) 0 (r * w)) as C.
  { induction r as [|r IH]; intros Hr; [apply reach_refl|].
    eapply reach_step; [apply IH; lia|]. left.
    replace (r * w) with (r * w + 0) by lia. replace (S r * w) with ((r + 1) * w + 0) by lia.
    apply reg2d_links_px; lia. }
  revert Hj. induction j as [|j IH]; intros Hj.
  - rewrite Nat.add_0_r. auto.
  - eapply reach_step; [apply IH; lia|]. left. apply reg2d_links_px; lia.
Qed.

Local Open Scope Q_scope.

Definition reg2d_phi (w : nat) (f : nat -> nat -> Q) (k : nat) : Q :=
  let i := (k / w)%nat in let j := (k mod w)%nat in
  sumQ (map (fun r => f (r * w)%nat (r * w + w)%nat) (seq 0 i))
  + sumQ (map (fun c => f (i * w + c)%nat (i * w + c + 1)%nat) (seq 0 j)).

Lemma reg2d_phi_px w f i j : (j < w)%nat ->
  reg2d_phi w f (i * w + j) =
  sumQ (map (fun r => f (r * w)%nat (r * w + w)%nat) (seq 0 i))
  + sumQ (map (fun c => f (i * w + c)%nat (i * w + c + 1)%nat) (seq 0 j)).
Proof.
  intros Hj. unfold reg2d_phi.
  replace ((i * w + j) / w)%nat with i by (apply (Nat.div_unique _ w i j); lia).
  replace ((i * w + j) mod w)%nat with j by (apply (Nat.mod_unique _ w i j); lia).
  reflexivity.
Qed.

Lemma circQ_quad f a b c d :
  circQ f [a; b; c; d] == alongQ f a b + alongQ f b c + alongQ f c d + alongQ f d a.
Proof. unfold circQ, sides. cbn [combine app map fst snd]. rewrite !sumQ_cons, sumQ_nil. ring. Qed.

Lemma reg2d_span h w f : (2 <= h)%nat -> (2 <= w)%nat ->
  (forall c, In c (g_cycles (reg2d_graph h w)) -> circQ f c == 0) ->
  potentialQ (reg2d_graph h w) f (reg2d_phi w f).
Proof.
  intros Hh Hw Hc.
  assert (forall i j, (i + 1 < h)%nat -> (j + 1 < w)%nat ->
    f (i*w+j)%nat (i*w+j+w)%nat + f (i*w+w+j)%nat (i*w+w+j+1)%nat
    == f (i*w+j)%nat (i*w+j+1)%nat + f (i*w+j+1)%nat (i*w+j+1+w)%nat) as Cell.
  { intros i j Hi Hj.
    assert (In [i * w + j; (i + 1) * w + j; (i + 1) * w + (j + 1); i * w + (j + 1)]%nat
      (g_cycles (reg2d_graph h w))) as Hin.
    { cbn [reg2d_graph g_cycles]. unfold reg2d_cycle_rows. apply in_flat_map. exists i.
      rewrite in_seq. split; [lia|]. apply in_map_iff. exists j. rewrite in_seq. split; [auto|lia]. }
    apply Hc in Hin. rewrite circQ_quad in Hin.
    rewrite !along_lt, !along_gt in Hin by lia.
    replace ((i + 1) * w + j)%nat with (i*w+j+w)%nat in Hin by lia.
    replace ((i + 1) * w + (j + 1))%nat with (i*w+j+1+w)%nat in Hin by lia.
    replace (i * w + (j + 1))%nat with (i*w+j+1)%nat in Hin by lia.
    replace (i*w+w+j+1)%nat with (i*w+j+1+w)%nat by lia.
    replace (i*w+w+j)%nat with (i*w+j+w)%nat by lia. lra. }
  intros a b Hab. cbn [reg2d_graph g_links] in Hab. apply reg2d_links_In in Hab.
  destruct Hab as (i & j & -> & [(-> & Hi & Hj)|(-> & Hi & Hj)]).
  - replace (i * w + j + 1)%nat with (i * w + (j + 1))%nat at 2 by lia.
    rewrite !reg2d_phi_px by lia. replace (j + 1)%nat with (S j) by lia.
    rewrite seq_snoc, map_app, sumQ_app. cbn [map]. rewrite sumQ_cons, sumQ_nil, Nat.add_0_l. ring.
  - replace (i * w + j + w)%nat with ((i + 1) * w + j)%nat at 2 by lia.
    rewrite !reg2d_phi_px by lia. replace (i + 1)%nat with (S i) by lia.
    rewrite seq_snoc, map_app, sumQ_app. cbn [map]. rewrite sumQ_cons, sumQ_nil, Nat.add_0_l.
    replace (S i * w)%nat with (i * w + w)%nat by lia.
    induction j as [|j IH].
    + cbn [seq map]. rewrite !sumQ_nil, Nat.add_0_r. ring.
    + rewrite seq_snoc, !map_app, !sumQ_app. cbn [map]. rewrite !sumQ_cons, !sumQ_nil, !Nat.add_0_l.
      specialize (IH ltac:(lia)). specialize (Cell i j ltac:(lia) ltac:(lia)).
      replace (i * w + S j)%nat with (i*w+j+1)%nat by lia. lra.
Qed.

Local Close Scope Q_scope.

Lemma reg2d_planar h w : 2 <= h -> 2 <= w -> planar (reg2d_graph h w).
Proof.
  intros Hh Hw.
  assert (forall a b, In (a, b) (reg2d_link_rows h w) -> exists i j i' j',
    i < h /\ j < w /\ i' < h /\ j' < w /\ a = i * w + j /\ b = i' * w + j' /\
    ((i' = i /\ j' = j + 1) \/ (i' = i + 1 /\ j' = j))) as L.
  { intros a b H. apply reg2d_links_In in H as (i & j & -> & [(-> & H)|(-> & H)]).
    - exists i, j, i, (j + 1). lia.
    - exists i, j, (i + 1), j. lia. }
  constructor; cbn [reg2d_graph g_npoints g_links].
  - apply reg2d_links_NoDup'.
  - intros a b H. apply L in H as (i & j & i' & j' & H1 & H2 & H3 & H4 & -> & -> & H).
    split; [destruct H as [[-> ->]|[-> ->]]; lia|]. now apply px_lt.
  - intros v Hv. now apply reg2d_conn.
  - intros E. apply (f_equal (@length _)) in E. cbn [reg2d_graph g_cycles] in E.
    rewrite reg2d_cycle_rows_length in E. cbn in E. nia.
  - intros c c' H H'. cbn [reg2d_graph g_cycles] in *. unfold reg2d_cycle_rows in *.
    apply in_flat_map in H as (? & _ & H). apply in_map_iff in H as (? & <- & _).
    apply in_flat_map in H' as (? & _ & H'). apply in_map_iff in H' as (? & <- & _).
    reflexivity.
  - intros c H. cbn [reg2d_graph g_cycles] in H. unfold reg2d_cycle_rows in H.
    apply in_flat_map in H as (? & _ & H). apply in_map_iff in H as (? & <- & _). cbn. lia.
  - intros a b H. apply reg2d_sides_In in H as (i & j & Hi & Hj & [[-> ->]|[[-> ->]|[[-> ->]|[-> ->]]]]);
      rewrite !reg2d_links_In.
    + left. exists i, j. lia.
    + left. exists (i + 1), j. lia.
    + right. exists i, (j + 1). lia.
    + right. exists i, j. lia.
  - now apply reg2d_sides_NoDup.
  - intros a b H. apply L in H as (i & j & i' & j' & H1 & H2 & H3 & H4 & -> & -> & H).
    rewrite !reg2d_sides_px by auto. clear -H Hh Hw H1 H2 H3 H4. destruct H as [[-> ->]|[-> ->]].
    + destruct (Nat.eq_dec i 0); [right; right; right; right|left; right; right; left]; lia.
    + destruct (Nat.eq_dec j 0); [left; left|right; right; left]; lia.
  - intros f Hf. exists (reg2d_phi w f). now apply reg2d_span.
Qed.

Lemma reg2d_points_nth h w i j : i < h -> j < w ->
  nth_error (reg2d_points h w) (i * w + j) = Some (j, i).
Proof.
  unfold reg2d_points. intros Hi Hj.
  assert (forall s m i, i < m -> nth_error (flat_map (fun i => map (fun j => (j, i)) (seq 0 w)) (seq s m))
    (i * w + j) = Some (j, s + i)) as K.
  { intros s m; revert s. induction m as [|m IH]; intros s [|i'] Hm; try lia; cbn [seq flat_map].
    - rewrite nth_error_app1 by (rewrite map_length, seq_length; lia). cbn [Nat.mul Nat.add].
      rewrite Nat.add_0_r. erewrite map_nth_error; [reflexivity|].
      rewrite (nth_error_nth' _ 0) by (rewrite seq_length; lia). now rewrite seq_nth.
    - rewrite nth_error_app2 by (rewrite map_length, seq_length; nia).
      rewrite map_length, seq_length.
      replace (S i' * w + j - w) with (i' * w + j) by nia. rewrite IH by lia. do 2 f_equal. lia. }
  now apply K.
Qed.

Lemma reg2d_points_length h w : length (reg2d_points h w) = h * w.
Proof.
  unfold reg2d_points. rewrite (flat_map_len w), seq_length; auto.
  intros; now rewrite map_length, seq_length.
Qed.

(** * Boundary *)
Definition reg2d_boundary_rows h w :=
    map (fun ii => (ii, ii + 1)) (seq 0 (w - 1))
    ++ map (fun ii => let off := ii * w + w - 1 in (off, off + w)) (seq 0 (h - 1))
    ++ map (fun ii => let off := (h - 1) * w in (off + ii - 1, off + ii)) (rev (seq 1 (w - 1)))
    ++ map (fun ii => let off := ii * w in (off - w, off)) (rev (seq 1 (h - 1))).

Lemma reg2d_boundary_ok h w : 1 <= h -> 1 <= w -> reg2d_boundary h w = Ok (reg2d_boundary_rows h w).
Proof.
  intros Hh Hw. unfold reg2d_boundary. fold (reg2d_boundary_rows h w). cbv zeta.
  assert (Z.of_nat (length (reg2d_boundary_rows h w)) = 2 * (Z.of_nat h + Z.of_nat w - 2))%Z as E.
  { unfold reg2d_boundary_rows. rewrite !app_length, !map_length, !rev_length, !seq_length. lia. }
  rewrite fill_ok by auto. cbn [bind]. rewrite E, Z.eqb_refl. reflexivity.
Qed.

Lemma reg2d_boundary_NoDup h w : 2 <= h -> 2 <= w -> NoDup (reg2d_boundary_rows h w).
Proof.
  intros Hh Hw. unfold reg2d_boundary_rows. cbv zeta.
  assert (w <= (h - 1) * w) as Hm by nia.
  apply NoDup_app_intro; [| apply NoDup_app_intro; [| apply NoDup_app_intro |] |].
  - apply NoDup_map_inj_in; [|apply seq_NoDup]. intros x y _ _ E; injection E; lia.
  - apply NoDup_map_inj_in; [|apply seq_NoDup]. intros x y _ _ E; injection E; nia.
  - apply NoDup_map_inj_in; [|apply NoDup_rev, seq_NoDup]. intros x y _ _ E; injection E; lia.
  - apply NoDup_map_inj_in; [|apply NoDup_rev, seq_NoDup]. intros x y _ _ E; injection E; nia.
  - intros [a b] H H'. apply in_map_iff in H as (i & H & Hi), H' as (j & H' & Hj).
    rewrite <- in_rev, in_seq in Hi, Hj. rewrite pair_eq_iff in H, H'.
    assert (j * w <= (h - 1) * w) by nia. assert (w <= j * w) by nia. lia.
  - intros [a b] H H'. apply in_map_iff in H as (i & H & Hi).
    rewrite in_seq in Hi. rewrite pair_eq_iff in H.
    rewrite in_app_iff in H'. destruct H' as [H'|H']; apply in_map_iff in H' as (j & H' & Hj);
      rewrite <- in_rev, in_seq in Hj; rewrite pair_eq_iff in H'; [lia|].
    assert (w <= j * w) by nia.
    destruct (idx_inj w i (w - 1) (j - 1) 0); try lia. nia.
  - intros [a b] H H'. apply in_map_iff in H as (i & H & Hi).
    rewrite in_seq in Hi. rewrite pair_eq_iff in H.
    rewrite !in_app_iff in H'. destruct H' as [H'|[H'|H']]; apply in_map_iff in H' as (j & H' & Hj);
      rewrite <- ?in_rev, in_seq in Hj; rewrite pair_eq_iff in H'; [nia|lia|].
    assert (w <= j * w) by nia. lia.
Qed.

Lemma reg2d_boundary_iff h w a b : 2 <= h -> 2 <= w ->
  on_boundary (reg2d_graph h w) a b <-> In (a, b) (reg2d_boundary_rows h w).
Proof.
  intros Hh Hw. unfold on_boundary. cbn [reg2d_graph g_links].
  assert (In (a, b) (reg2d_boundary_rows h w) <->
    (exists j, j + 1 < w /\ (a = 0 * w + j /\ b = 0 * w + (j + 1) \/
                           a = (h - 1) * w + j /\ b = (h - 1) * w + (j + 1))) \/
    (exists i, i + 1 < h /\ (a = i * w + 0 /\ b = (i + 1) * w + 0 \/
                           a = i * w + (w - 1) /\ b = (i + 1) * w + (w - 1)))) as B.
  { unfold reg2d_boundary_rows. cbv zeta. rewrite !in_app_iff, !in_map_iff. split.
    - intros [(j & E & Hj)|[(i & E & Hi)|[(j & E & Hj)|(i & E & Hi)]]]; rewrite pair_eq_iff in E.
      + rewrite in_seq in Hj. left. exists j. lia.
      + rewrite in_seq in Hi. right. exists i. lia.
      + rewrite <- in_rev, in_seq in Hj. left. exists (j - 1).
        remember ((h - 1) * w) as o. lia.
      + rewrite <- in_rev, in_seq in Hi. right. exists (i - 1). destruct i as [|i]; [lia|].
        replace (S i - 1) with i by lia. lia.
    - intros [(j & Hj & [E|E])|(i & Hi & [E|E])].
      + left. exists j. rewrite in_seq, pair_eq_iff. lia.
      + right; right; left. exists (j + 1). rewrite <- in_rev, in_seq, pair_eq_iff.
        remember ((h - 1) * w) as o. lia.
      + right; right; right. exists (i + 1). rewrite <- in_rev, in_seq, pair_eq_iff. lia.
      + right; left. exists i. rewrite in_seq, pair_eq_iff. lia. }
  rewrite B. split.
  - intros [H N]. apply reg2d_links_In in H as (i & j & -> & [(-> & H1 & H2)|(-> & H1 & H2)]).
    + replace (i * w + j + 1) with (i * w + (j + 1)) in * by lia.
      rewrite !reg2d_sides_px in N by lia. left. exists j. split; auto.
      destruct (Nat.eq_dec i 0) as [->|]; [left; lia|].
      destruct (Nat.eq_dec i (h - 1)) as [->|]; [right; lia|]. exfalso. apply N. lia.
    + replace (i * w + j + w) with ((i + 1) * w + j) in * by lia.
      rewrite !reg2d_sides_px in N by lia. right. exists i. split; auto.
      destruct (Nat.eq_dec j 0) as [->|]; [left; lia|].
      destruct (Nat.eq_dec j (w - 1)) as [->|]; [right; lia|]. exfalso. apply N. lia.
  - intros [(j & Hj & [[-> ->]|[-> ->]])|(i & Hi & [[-> ->]|[-> ->]])];
      rewrite reg2d_links_px, !reg2d_sides_px by lia; lia.
Qed.

Lemma reg2d_euler h w : 1 <= h -> 1 <= w ->
  h * w + length (g_cycles (reg2d_graph h w)) = length (reg2d_link_rows h w) + 1.
Proof.
  intros Hh Hw. cbn [reg2d_graph g_cycles]. rewrite reg2d_link_rows_length, reg2d_cycle_rows_length.
  destruct h as [|h], w as [|w]; try lia; nia.
Qed.
