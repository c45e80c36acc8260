(** flood_fill with rounding, whatever the gradients: the walk builds a tree of
    shortest paths, and each value is the rounded sum along its last link. *)
From Verif Require Import Base BaseLemmas GraphModel GraphSpec McfModel McfSpec PhaseProofs FloodProofs
  FloatMcfModel FloatMcfSpec FloatMcfRound FloatPhaseProofs FloatFloodProofs.
From Coq Require Import ZifyBool Sorted.
Set Default Goal Selector "!".

Local Open Scope nat_scope.

Section Loop.
Context (fe : Q -> Q).
Context (links : list (nat * nat)) (adj : nat -> list (nat * Q)) (npts L : nat).
Context (Hadj : forall i j gr, In (j, gr) (adj i) -> j < npts).
Context (Hnb : forall i j, In (i, j) links \/ In (j, i) links -> exists gr, In (j, gr) (adj i)).
Context (HL : depth_le links npts L) (H0 : 0 < npts).

(** The value of [v] has been computed from that of a point one link closer. *)
Definition from_at (dep : nat -> nat) (st : ff) (v : nat) : Prop :=
  v = 0 \/ exists i gr, isdone st i /\ In (v, gr) (adj i) /\ dep v = dep i + 1 /\ val st v = fe (val st i + gr)%Q.

Record tinv (dep : nat -> nat) (P cur : list nat) (got : list (nat * Q)) (st : ff) : Prop := {
  v_len1 : length (ff_done st) = npts;
  v_len2 : length (ff_unw st) = npts;
  v_done : forall i, isdone st i <-> In i (P ++ cur ++ ff_todo st);
  v_nodup : NoDup (P ++ cur ++ ff_todo st);
  v_lt : forall i, isdone st i -> i < npts;
  v_nbr : forall i j gr, In i P -> In (j, gr) (adj i) -> isdone st j;
  v_got : forall i j gr, In i cur -> In (j, gr) got -> isdone st j;
  v_zero : isdone st 0 /\ dep 0 = 0 /\ (val st 0 == 0)%Q;
  v_sort : StronglySorted (fun x y => dep x <= dep y) (cur ++ ff_todo st);
  v_hi : forall h x, In h (firstn 1 (cur ++ ff_todo st)) -> In x (ff_todo st) -> dep x <= dep h + 1;
  v_min : forall v n, isdone st v -> hops links n v -> dep v <= n;
  v_from : forall v, isdone st v -> from_at dep st v
}.

Lemma dep_le dep P cur got st v : tinv dep P cur got st -> isdone st v -> dep v <= L.
Proof.
  intros H Hv. destruct (HL v (v_lt _ _ _ _ _ H v Hv)) as (n & Hn & Hh).
  pose proof (v_min _ _ _ _ _ H v n Hv Hh). lia.
Qed.

Lemma tinv_nbr dep P i got j gr st : In (j, gr) (adj i) -> tinv dep P [i] got st ->
  exists dep', tinv dep' P [i] (got ++ [(j, gr)]) (ff_nbr_fl fe i st (j, gr)).
Proof.
  intros Hin H. pose proof H as HH. destruct H as [L1 L2 Hd Hn Hlt Hnbr Hgot Hz Hs Hh Hm Hne].
  assert (isdone st i) as Di by (apply Hd; rewrite !in_app_iff; cbn; auto).
  pose proof (Hadj _ _ _ Hin) as Hj.
  unfold ff_nbr_fl. destruct (nth j (ff_done st) false) eqn:E; cbn [negb].
  - (* already done: the check passes *)
    assert (forall i' j' g', In i' [i] -> In (j', g') (got ++ [(j, gr)]) -> isdone st j') as Hgot'.
    { intros i' j' g' Hi' Hg'. apply in_app_iff in Hg' as [Hg'|Hg']; [exact (Hgot i' j' g' Hi' Hg')|].
      destruct Hg' as [X|[]]. injection X as <- <-. exact E. }
    exists dep. cbv zeta. destruct (_ && _); constructor; auto.
  - set (st' := FF (upd (ff_done st) j true) (ff_todo st ++ [j])
                   (upd (ff_unw st) j (fe (nth i (ff_unw st) 0 + gr)%Q)) (ff_err st)).
    set (dep' := fun k => if k =? j then dep i + 1 else dep k).
    assert (forall k, isdone st' k <-> k = j \/ isdone st k) as Dst.
    { intros k. unfold isdone. cbn [st' ff_done]. destruct (Nat.eq_dec k j) as [->|N].
      - rewrite nth_upd_eq by lia. tauto.
      - rewrite nth_upd_neq by auto. intuition. }
    assert (~ isdone st j) as Nj by (unfold isdone; congruence).
    assert (forall k, isdone st k -> k <> j) as Nk by (intros k Hk ->; auto).
    assert (forall k, isdone st k -> dep' k = dep k) as Dk.
    { intros k Hk. unfold dep'. destruct (Nat.eqb_spec k j); [exfalso; subst; auto|reflexivity]. }
    assert (dep' j = dep i + 1) as Dj by (unfold dep'; now rewrite Nat.eqb_refl).
    assert (forall k, isdone st k -> val st' k = val st k) as Vst.
    { intros k Hk. unfold val. pose proof (Nk k Hk). cbn [st' ff_unw]. rewrite nth_upd_neq; auto. }
    assert (val st' j = fe (val st i + gr)) as Vj.
    { unfold val. cbn [st' ff_unw]. now rewrite nth_upd_eq by lia. }
    assert (forall k, In k ([i] ++ ff_todo st) -> isdone st k) as Dq.
    { intros k Hk. apply Hd. apply in_app_iff. auto. }
    exists dep'. constructor.
    + cbn. now rewrite upd_length.
    + cbn. now rewrite upd_length.
    + intros k. rewrite Dst, Hd. cbn [st' ff_todo]. rewrite !in_app_iff. cbn. intuition.
    + cbn [st' ff_todo]. rewrite !app_assoc. rewrite app_assoc in Hn.
      apply NoDup_app_intro; auto; [repeat constructor; auto|].
      intros k K1 K2. destruct K2 as [<-|[]]. apply Nj. apply Hd. rewrite app_assoc. auto.
    + intros k Hk. apply Dst in Hk as [->|Hk]; auto.
    + intros i' j' g' K1 K2. apply Dst. right. apply (Hnbr i' j' g'); auto.
    + intros i' j' g' K1 K2. apply Dst. apply in_app_iff in K2 as [K2|K2].
      * right. apply (Hgot i' j' g'); auto.
      * left. destruct K2 as [X|[]]. congruence.
    + destruct Hz as (Z1 & Z2 & Z3). split; [apply Dst; auto|]. rewrite Dk, Vst; auto.
    + cbn [st' ff_todo]. rewrite app_assoc. apply sorted_snoc.
      * assert (forall l, (forall k, In k l -> isdone st k) -> StronglySorted (fun x y => dep x <= dep y) l ->
          StronglySorted (fun x y => dep' x <= dep' y) l) as K.
        { clear -Dk. intros l Hl S. induction S as [|a l S IH F]; constructor.
          - apply IH. intros; apply Hl; now right.
          - rewrite Forall_forall in *. intros y Hy. rewrite !Dk; [apply F; auto|apply Hl; now right|apply Hl; now left]. }
        apply K; auto.
      * intros y Hy. rewrite Dj, Dk by (apply Dq; auto). cbn in Hy. destruct Hy as [<-|Hy]; [lia|].
        apply Hh; auto. cbn. auto.
    + intros h x Hh' Hx. cbn in Hh'. destruct Hh' as [<-|[]]. cbn [st' ff_todo] in Hx.
      apply in_app_iff in Hx as [Hx|Hx].
      * rewrite !Dk; [apply Hh; cbn; auto|auto|apply Dq; apply in_app_iff; auto].
      * destruct Hx as [<-|[]]. rewrite Dj, Dk by auto. lia.
    + intros v n Hv Hn'. apply Dst in Hv as [->|Hv]; [|rewrite Dk by auto; apply Hm; auto].
      rewrite Dj. inversion Hn' as [|n' x v Hx Hl]; subst; [exfalso; apply Nj, Hz|].
      assert (~ In x P) as NP.
      { intros HP. destruct (Hnb x j Hl) as [g' Hg']. apply Nj. eapply Hnbr; eauto. }
      assert (forall k y, hops links k y -> ~ In y P -> dep i <= k) as K.
      { assert (forall y, isdone st y -> ~ In y P -> dep i <= dep y) as K0.
        { intros y Hy NPy. apply Hd in Hy. apply in_app_iff in Hy as [Hy|Hy]; [contradiction|].
          destruct Hy as [<-|Hy]; [lia|]. inversion Hs as [|? ? S F]; subst. rewrite Forall_forall in F. apply F; auto. }
        intros k y Hk. induction Hk as [|k y' y Hk IH Hl']; intros NPy.
        - specialize (K0 0 (proj1 Hz) NPy). destruct Hz as (_ & Hz2 & _). rewrite Hz2 in K0. lia.
        - destruct (in_dec Nat.eq_dec y' P) as [I|I]; [|specialize (IH I); lia].
          destruct (Hnb y' y Hl') as [g' Hg']. pose proof (Hnbr _ _ _ I Hg') as Dy.
          pose proof (K0 y Dy NPy). pose proof (Hm y (S k) Dy (hops_S links k y' y Hk Hl')). lia. }
      pose proof (K n' x Hx NP). lia.
    + intros v Hv. apply Dst in Hv as [->|Hv].
      * right. exists i, gr. split; [apply Dst; auto|]. split; [exact Hin|]. split; [rewrite Dj, Dk; auto|]. rewrite Vj, Vst; auto.
      * destruct (Hne v Hv) as [->|(i' & g' & F1 & F2 & F3 & F4)]; [now left|]. right. exists i', g'.
        split; [apply Dst; auto|]. split; [exact F2|]. rewrite !Dk, !Vst; auto.
Qed.

Lemma tinv_fold P i l : forall dep got st, (forall x, In x l -> In x (adj i)) -> tinv dep P [i] got st ->
  exists dep', tinv dep' P [i] (got ++ l) (fold_left (ff_nbr_fl fe i) l st).
Proof.
  induction l as [|[j gr] l IH]; intros dep got st Hl H; cbn [fold_left].
  - exists dep. now rewrite app_nil_r.
  - replace (got ++ (j, gr) :: l) with ((got ++ [(j, gr)]) ++ l) by (now rewrite <- app_assoc).
    destruct (tinv_nbr dep P i got j gr st (Hl _ (or_introl eq_refl)) H) as [dep' H'].
    apply (IH dep'); auto. intros; apply Hl; now right.
Qed.

Lemma tinv_start dep P i rest st : ff_todo st = i :: rest -> tinv dep P [] [] st ->
  tinv dep P [i] [] (FF (ff_done st) rest (ff_unw st) (ff_err st)).
Proof.
  intros E [L1 L2 Hd Hn Hlt Hnbr Hgot Hz Hs Hh Hm Hne]. rewrite E in *. cbn [app] in *.
  constructor; auto; cbn [ff_todo]; auto.
  - intros ? ? ? ? [].
  - intros h x [<-|[]] Hx. apply Hh; cbn; auto.
Qed.

Lemma tinv_finish dep P i st : tinv dep P [i] (adj i) st -> tinv dep (P ++ [i]) [] [] st.
Proof.
  intros [L1 L2 Hd Hn Hlt Hnbr Hgot Hz Hs Hh Hm Hne]. constructor; auto.
  - intros k. rewrite Hd. rewrite <- app_assoc. cbn. tauto.
  - rewrite <- app_assoc. exact Hn.
  - intros i' j' g' K1 K2. apply in_app_iff in K1 as [K1|K1]; [eapply Hnbr; eauto|].
    destruct K1 as [<-|[]]. apply (Hgot i j' g'); auto. now left.
  - intros ? ? ? [].
  - cbn [app]. now inversion Hs.
  - cbn [app]. intros h x Hh' Hx. inversion Hs as [|? ? S F]; subst. rewrite Forall_forall in F.
    assert (In h (ff_todo st)) as Hi.
    { destruct (ff_todo st); [destruct Hh'|]. destruct Hh' as [<-|[]]. now left. }
    specialize (F h Hi). assert (dep x <= dep i + 1) by (apply Hh; cbn; auto). lia.
Qed.

Lemma tinv_bound dep P cur got st : tinv dep P cur got st -> length (P ++ cur ++ ff_todo st) <= npts.
Proof.
  intros H. rewrite <- (seq_length npts 0). apply NoDup_incl_length; [apply H|].
  intros k Hk. apply in_seq. apply (v_done _ _ _ _ _ H) in Hk. apply (v_lt _ _ _ _ _ H) in Hk. lia.
Qed.

Lemma loop_tinv fuel : forall dep P st, tinv dep P [] [] st -> npts <= fuel + length P ->
  exists st' dep' P', ff_loop_fl fe fuel adj st = Ok st' /\ tinv dep' P' [] [] st' /\ ff_todo st' = [].
Proof.
  induction fuel as [|fuel IH]; intros dep P st H Hf; cbn [ff_loop_fl]; destruct (ff_todo st) as [|i rest] eqn:E.
  - eauto 6.
  - exfalso. apply tinv_bound in H. rewrite E, !app_length in H. cbn in H. lia.
  - eauto 6.
  - destruct (tinv_fold P i (adj i) dep [] _ (fun x h => h) (tinv_start dep P i rest st E H)) as [dep' H'].
    apply (IH dep' (P ++ [i])); [now apply tinv_finish|]. rewrite app_length. cbn. lia.
Qed.

Let st0 := FF (upd (repeat false npts) 0 true) [0] (repeat 0%Q npts) 0.

Lemma tinv0 : tinv (fun _ => 0) [] [] [] st0.
Proof.
  assert (forall i, isdone st0 i <-> i = 0) as D.
  { intros i. unfold isdone. cbn [st0 ff_done]. destruct i as [|i].
    - rewrite nth_upd_eq by (rewrite repeat_length; lia). tauto.
    - rewrite nth_upd_neq by lia.
      assert (nth (S i) (repeat false npts) false = false) as ->; [|split; [discriminate|lia]].
      destruct (nth_in_or_default (S i) (repeat false npts) false) as [X|X]; auto. now apply repeat_spec in X. }
  assert (val st0 0 == 0)%Q as V.
  { unfold val. cbn [st0 ff_unw]. destruct npts; reflexivity. }
  constructor; try (intros; cbn in *; tauto).
  - cbn. now rewrite upd_length, repeat_length.
  - cbn. now rewrite repeat_length.
  - intros i. rewrite D. cbn. intuition.
  - cbn. repeat constructor; auto.
  - intros i Hi. apply D in Hi. lia.
  - split; [now apply D|]. split; [reflexivity|exact V].
  - cbn. repeat constructor.
  - intros. lia.
  - intros. lia.
  - intros v Hv. apply D in Hv. now left.
Qed.

Lemma loop_done_length st : ff_loop_fl fe npts adj st0 = Ok st -> length (ff_done st) = npts.
Proof.
  intros E. destruct (loop_tinv npts (fun _ => 0) [] st0 tinv0 ltac:(cbn; lia)) as (st' & dep & P & E' & H & _).
  rewrite E in E'. injection E' as <-. apply H.
Qed.

Theorem flood_loop_tree st : ff_loop_fl fe npts adj st0 = Ok st -> (forall v, v < npts -> isdone st v) ->
  length (ff_unw st) = npts /\
  exists dep, dep 0 = 0 /\ (val st 0 == 0)%Q /\ (forall v, v < npts -> dep v <= L) /\
    forall v, v < npts -> v <> 0 -> exists i gr, i < npts /\ In (v, gr) (adj i) /\ dep v = dep i + 1 /\ val st v = fe (val st i + gr)%Q.
Proof.
  intros E Hd. destruct (loop_tinv npts (fun _ => 0) [] st0 tinv0 ltac:(cbn; lia)) as (st' & dep & P & E' & H & _).
  rewrite E in E'. injection E' as <-. split; [apply H|]. exists dep. destruct (v_zero _ _ _ _ _ H) as (_ & Z1 & Z2).
  split; [exact Z1|]. split; [exact Z2|]. split.
  - intros v Hv. eapply dep_le; eauto.
  - intros v Hv N. destruct (v_from _ _ _ _ _ H v (Hd v Hv)) as [X|(i & g & F1 & F2 & F3 & F4)]; [contradiction|].
    exists i, g. split; [apply (v_lt _ _ _ _ _ H i F1)|auto].
Qed.
End Loop.
