(** flood_fill with rounding: breadth-first order bounds the errors by the depth. *)
From Verif Require Import Base BaseLemmas GraphModel GraphSpec McfModel McfSpec PhaseProofs FloodProofs
  FloatMcfModel FloatMcfSpec FloatMcfRound FloatPhaseProofs.
From Coq Require Import ZifyBool Sorted.
Set Default Goal Selector "!".

Local Open Scope nat_scope.

Lemma tol_pos : (1 # 1001 < tol)%Q.
Proof. reflexivity. Qed.

Notation qn n := (inject_Z (Z.of_nat n)).
Lemma qn_nonneg n : (0 <= qn n)%Q.
Proof. change 0%Q with (inject_Z 0). apply inject_Z_le_iff. lia. Qed.
Lemma qn_le (a b : nat) : (a <= b)%nat -> (qn a <= qn b)%Q.
Proof. intros H. apply inject_Z_le_iff. lia. Qed.
Lemma qn_S a : (qn (S a) == qn a + 1)%Q.
Proof. rewrite Nat2Z.inj_succ, <- Z.add_1_r, inject_Z_add. reflexivity. Qed.

Section Loop.
Context (fe : Q -> Q) (w : Q) (Hfe : rounding fe w) (Hw : (w <= 1 # 100)%Q).
Context (links : list (nat * nat)) (adj : nat -> list (nat * Q)) (npts L : nat).
Context (Hadj : forall i j gr, In (j, gr) (adj i) -> j < npts).
Context (Hnb : forall i j, In (i, j) links \/ In (j, i) links -> exists gr, In (j, gr) (adj i)).
Context (HL : depth_le links npts L) (H0 : 0 < npts).
Context (psi : nat -> Q) (B gamma : Q) (Hpsi0 : (psi 0%nat == 0)%Q)
  (HB : forall v, v < npts -> (- B <= psi v <= B)%Q)
  (Hg : forall i j gr, i < npts -> In (j, gr) (adj i) -> (- gamma <= gr - (psi j - psi i) <= gamma)%Q).
Let eps : Q := (gamma + w * (B + 1))%Q.
Context (Hgam : (0 <= gamma)%Q) (HLe : ((qn L + 1) * eps <= 1)%Q).
Let tight : Prop := ((qn L + 1) * eps <= 1 # 4000)%Q.

Lemma B_nonneg : (0 <= B)%Q.
Proof. pose proof (HB 0 H0). lra. Qed.
Lemma w_nonneg : (0 <= w)%Q.
Proof. exact (rd_nonneg fe w Hfe). Qed.
Lemma eps_nonneg : (0 <= eps)%Q.
Proof. pose proof B_nonneg. pose proof w_nonneg. unfold eps. nra. Qed.

Definition near_at (dep : nat -> nat) (st : ff) (v : nat) : Prop :=
  (- (qn (dep v) * eps) <= val st v - psi v <= qn (dep v) * eps)%Q.

Record finv (dep : nat -> nat) (P cur : list nat) (got : list (nat * Q)) (st : ff) : Prop := {
  v_len1 : length (ff_done st) = npts;
  v_len2 : length (ff_unw st) = npts;
  v_done : forall i, isdone st i <-> In i (P ++ cur ++ ff_todo st);
  v_nodup : NoDup (P ++ cur ++ ff_todo st);
  v_lt : forall i, isdone st i -> i < npts;
  v_nbr : forall i j gr, In i P -> In (j, gr) (adj i) -> isdone st j;
  v_got : forall i j gr, In i cur -> In (j, gr) got -> isdone st j;
  v_zero : isdone st 0 /\ dep 0 = 0 /\ (val st 0 == 0)%Q;
  v_sort : StronglySorted (fun x y => dep x <= dep y) (cur ++ ff_todo st);
  v_hi : forall h x, In h (firstn 1 (cur ++ ff_todo st)) -> In x (ff_todo st) -> dep x <= dep h + 1;
  v_min : forall v n, isdone st v -> hops links n v -> dep v <= n;
  v_near : forall v, isdone st v -> near_at dep st v;
  v_err : tight -> ff_err st = 0
}.

Lemma dep_le dep P cur got st v : finv dep P cur got st -> isdone st v -> dep v <= L.
Proof.
  intros H Hv. destruct (HL v (v_lt _ _ _ _ _ H v Hv)) as (n & Hn & Hh).
  pose proof (v_min _ _ _ _ _ H v n Hv Hh). lia.
Qed.

Lemma step_near dep P cur got st i j gr : finv dep P cur got st -> isdone st i -> In (j, gr) (adj i) ->
  (- ((qn (dep i) + 1) * eps) <= fe (val st i + gr) - psi j <= (qn (dep i) + 1) * eps)%Q
  /\ (tight -> (qn (dep i) + 1) * eps <= 1 # 4000)%Q.
Proof.
  intros H Hi Hin. pose proof (v_near _ _ _ _ _ H i Hi) as Hn. unfold near_at in Hn.
  pose proof (v_lt _ _ _ _ _ H i Hi) as Hlt. pose proof (Hadj _ _ _ Hin) as Hj.
  pose proof (Hg i j gr Hlt Hin) as G. pose proof (HB j Hj) as Bj.
  pose proof (qn_le _ _ (dep_le _ _ _ _ _ i H Hi)) as D. pose proof (qn_nonneg (dep i)) as D0.
  pose proof eps_nonneg as He. pose proof w_nonneg as Hw0.
  assert ((qn (dep i) + 1) * eps <= (qn L + 1) * eps)%Q as S0 by nra.
  split; [|unfold tight; lra].
  assert ((qn (dep i) + 1) * eps <= 1)%Q as S1 by lra.
  assert (gamma <= eps)%Q as Hge by (unfold eps; pose proof B_nonneg; nra).
  set (e := (qn (dep i) * eps)%Q) in *. assert ((qn (dep i) + 1) * eps == e + eps)%Q as -> by (unfold e; ring).
  assert (e + eps <= 1)%Q as S2 by (unfold e; lra). clearbody e.
  pose proof (rd_bound fe w Hfe (val st i + gr) (B + 1)) as R.
  assert (- (w * (B + 1)) <= fe (val st i + gr) - (val st i + gr) <= w * (B + 1))%Q as R' by (apply R; lra).
  unfold eps in *. lra.
Qed.

Lemma sorted_snoc {A} (R : A -> A -> Prop) l x : StronglySorted R l -> (forall y, In y l -> R y x) -> StronglySorted R (l ++ [x]).
Proof.
  intros S. induction S as [|a l S IH F]; intros H; cbn [app].
  - repeat constructor.
  - constructor; [apply IH; intros; apply H; now right|]. apply Forall_app. split; auto. repeat constructor.
    apply H. now left.
Qed.

Lemma finv_nbr dep P i got j gr st : In (j, gr) (adj i) -> finv dep P [i] got st ->
  exists dep', finv dep' P [i] (got ++ [(j, gr)]) (ff_nbr_fl fe i st (j, gr)).
Proof.
  intros Hin H. pose proof H as HH. destruct H as [L1 L2 Hd Hn Hlt Hnbr Hgot Hz Hs Hh Hm Hne He].
  assert (isdone st i) as Di by (apply Hd; rewrite !in_app_iff; cbn; auto).
  pose proof (Hadj _ _ _ Hin) as Hj.
  destruct (step_near dep P [i] got st i j gr HH Di Hin) as [SN SL].
  unfold ff_nbr_fl. destruct (nth j (ff_done st) false) eqn:E; cbn [negb].
  - (* already done: the check passes *)
    pose proof (Hne j E) as Nj. unfold near_at in Nj.
    pose proof (qn_le _ _ (dep_le _ _ _ _ _ j HH E)) as D. pose proof eps_nonneg as He0. pose proof w_nonneg as Hw0.
    pose proof tol_pos as T.
    assert (qn (dep j) * eps <= (qn L + 1) * eps)%Q as SJ by (pose proof (qn_nonneg (dep j)); nra).
    fold (val st i) (val st j).
    set (x := (fe (val st i + gr) - val st j)%Q).
    assert (tight -> Qle_bool (fe x) tol && Qle_bool (- tol) (fe x) = true) as Ht.
    { intros Tt. specialize (SL Tt). unfold tight in Tt.
      assert (- (1 # 2000) <= x <= 1 # 2000)%Q as Hx by (unfold x; lra).
      pose proof (rd_bound fe w Hfe x (1 # 2000) Hx) as R.
      assert (w * (1 # 2000) <= 1 # 200000)%Q as R1 by lra.
      rewrite andb_true_iff, !Qle_bool_iff. lra. }
    assert (forall i' j' g', In i' [i] -> In (j', g') (got ++ [(j, gr)]) -> isdone st j') as Hgot'.
    { intros i' j' g' Hi' Hg'. apply in_app_iff in Hg' as [Hg'|Hg']; [exact (Hgot i' j' g' Hi' Hg')|].
      destruct Hg' as [X|[]]. injection X as <- <-. exact E. }
    exists dep. destruct (Qle_bool (fe x) tol && Qle_bool (- tol) (fe x)) eqn:Eb.
    + constructor; auto.
    + constructor; auto. intros Tt. specialize (Ht Tt). discriminate.
  - set (st' := FF (upd (ff_done st) j true) (ff_todo st ++ [j])
                   (upd (ff_unw st) j (fe (nth i (ff_unw st) 0 + gr)%Q)) (ff_err st)).
    set (dep' := fun k => if k =? j then dep i + 1 else dep k).
    assert (forall k, isdone st' k <-> k = j \/ isdone st k) as Dst.
    { intros k. unfold isdone. cbn [st' ff_done]. destruct (Nat.eq_dec k j) as [->|N].
      - rewrite nth_upd_eq by lia. tauto.
      - rewrite nth_upd_neq by auto. intuition. }
    assert (~ isdone st j) as Nj by (unfold isdone; congruence).
    assert (forall k, isdone st k -> k <> j) as Nk by (intros k Hk ->; auto).
    assert (forall k, isdone st k -> dep' k = dep k) as Dk.
    { intros k Hk. unfold dep'. destruct (Nat.eqb_spec k j); [exfalso; subst; auto|reflexivity]. }
    assert (dep' j = dep i + 1) as Dj by (unfold dep'; now rewrite Nat.eqb_refl).
    assert (forall k, isdone st k -> val st' k = val st k) as Vst.
    { intros k Hk. unfold val. pose proof (Nk k Hk). cbn [st' ff_unw]. rewrite nth_upd_neq; auto. }
    assert (val st' j = fe (val st i + gr)) as Vj.
    { unfold val. cbn [st' ff_unw]. now rewrite nth_upd_eq by lia. }
    assert (forall k, In k ([i] ++ ff_todo st) -> isdone st k) as Dq.
    { intros k Hk. apply Hd. apply in_app_iff. auto. }
    exists dep'. constructor.
    + cbn. now rewrite upd_length.
    + cbn. now rewrite upd_length.
    + intros k. rewrite Dst, Hd. cbn [st' ff_todo]. rewrite !in_app_iff. cbn. intuition.
    + cbn [st' ff_todo]. rewrite !app_assoc. rewrite app_assoc in Hn.
      apply NoDup_app_intro; auto; [repeat constructor; auto|].
      intros k K1 K2. destruct K2 as [<-|[]]. apply Nj. apply Hd. rewrite app_assoc. auto.
    + intros k Hk. apply Dst in Hk as [->|Hk]; auto.
    + intros i' j' g' K1 K2. apply Dst. right. apply (Hnbr i' j' g'); auto.
    + intros i' j' g' K1 K2. apply Dst. apply in_app_iff in K2 as [K2|K2].
      * right. apply (Hgot i' j' g'); auto.
      * left. destruct K2 as [X|[]]. congruence.
    + destruct Hz as (Z1 & Z2 & Z3). split; [apply Dst; auto|]. rewrite Dk, Vst; auto.
    + cbn [st' ff_todo]. rewrite app_assoc. apply sorted_snoc.
      * assert (forall l, (forall k, In k l -> isdone st k) -> StronglySorted (fun x y => dep x <= dep y) l ->
          StronglySorted (fun x y => dep' x <= dep' y) l) as K.
        { clear -Dk. intros l Hl S. induction S as [|a l S IH F]; constructor.
          - apply IH. intros; apply Hl; now right.
          - rewrite Forall_forall in *. intros y Hy. rewrite !Dk; [apply F; auto|apply Hl; now right|apply Hl; now left]. }
        apply K; auto.
      * intros y Hy. rewrite Dj, Dk by (apply Dq; auto). cbn in Hy. destruct Hy as [<-|Hy]; [lia|].
        apply Hh; auto. cbn. auto.
    + intros h x Hh' Hx. cbn in Hh'. destruct Hh' as [<-|[]]. cbn [st' ff_todo] in Hx.
      apply in_app_iff in Hx as [Hx|Hx].
      * rewrite !Dk; [apply Hh; cbn; auto|auto|apply Dq; apply in_app_iff; auto].
      * destruct Hx as [<-|[]]. rewrite Dj, Dk by auto. lia.
    + intros v n Hv Hn'. apply Dst in Hv as [->|Hv]; [|rewrite Dk by auto; apply Hm; auto].
      rewrite Dj. inversion Hn' as [|n' x v Hx Hl]; subst; [exfalso; apply Nj, Hz|].
      assert (~ In x P) as NP.
      { intros HP. destruct (Hnb x j Hl) as [g' Hg']. apply Nj. eapply Hnbr; eauto. }
      assert (forall k y, hops links k y -> ~ In y P -> dep i <= k) as K.
      { assert (forall y, isdone st y -> ~ In y P -> dep i <= dep y) as K0.
        { intros y Hy NPy. apply Hd in Hy. apply in_app_iff in Hy as [Hy|Hy]; [contradiction|].
          destruct Hy as [<-|Hy]; [lia|]. inversion Hs as [|? ? S F]; subst. rewrite Forall_forall in F. apply F; auto. }
        intros k y Hk. induction Hk as [|k y' y Hk IH Hl']; intros NPy.
        - specialize (K0 0 (proj1 Hz) NPy). destruct Hz as (_ & Hz2 & _). rewrite Hz2 in K0. lia.
        - destruct (in_dec Nat.eq_dec y' P) as [I|I]; [|specialize (IH I); lia].
          destruct (Hnb y' y Hl') as [g' Hg']. pose proof (Hnbr _ _ _ I Hg') as Dy.
          pose proof (K0 y Dy NPy). pose proof (Hm y (S k) Dy (hops_S links k y' y Hk Hl')). lia. }
      pose proof (K n' x Hx NP). lia.
    + intros v Hv. unfold near_at. apply Dst in Hv as [->|Hv].
      * rewrite Dj, Vj. replace (dep i + 1) with (S (dep i)) by lia. rewrite qn_S. exact SN.
      * rewrite Dk, Vst by auto. apply Hne; auto.
    + exact He.
Qed.

Lemma finv_fold P i l : forall dep got st, (forall x, In x l -> In x (adj i)) -> finv dep P [i] got st ->
  exists dep', finv dep' P [i] (got ++ l) (fold_left (ff_nbr_fl fe i) l st).
Proof.
  induction l as [|[j gr] l IH]; intros dep got st Hl H; cbn [fold_left].
  - exists dep. now rewrite app_nil_r.
  - replace (got ++ (j, gr) :: l) with ((got ++ [(j, gr)]) ++ l) by (now rewrite <- app_assoc).
    destruct (finv_nbr dep P i got j gr st (Hl _ (or_introl eq_refl)) H) as [dep' H'].
    apply (IH dep'); auto. intros; apply Hl; now right.
Qed.

Lemma finv_start dep P i rest st : ff_todo st = i :: rest -> finv dep P [] [] st ->
  finv dep P [i] [] (FF (ff_done st) rest (ff_unw st) (ff_err st)).
Proof.
  intros E [L1 L2 Hd Hn Hlt Hnbr Hgot Hz Hs Hh Hm Hne He]. rewrite E in *. cbn [app] in *.
  constructor; auto; cbn [ff_todo]; auto.
  - intros ? ? ? ? [].
  - intros h x [<-|[]] Hx. apply Hh; cbn; auto.
Qed.

Lemma finv_finish dep P i st : finv dep P [i] (adj i) st -> finv dep (P ++ [i]) [] [] st.
Proof.
  intros [L1 L2 Hd Hn Hlt Hnbr Hgot Hz Hs Hh Hm Hne He]. constructor; auto.
  - intros k. rewrite Hd. rewrite <- app_assoc. cbn. tauto.
  - rewrite <- app_assoc. exact Hn.
  - intros i' j' g' K1 K2. apply in_app_iff in K1 as [K1|K1]; [eapply Hnbr; eauto|].
    destruct K1 as [<-|[]]. apply (Hgot i j' g'); auto. now left.
  - intros ? ? ? [].
  - cbn [app]. now inversion Hs.
  - cbn [app]. intros h x Hh' Hx. inversion Hs as [|? ? S F]; subst. rewrite Forall_forall in F.
    assert (In h (ff_todo st)) as Hi.
    { destruct (ff_todo st); [destruct Hh'|]. destruct Hh' as [<-|[]]. now left. }
    specialize (F h Hi). assert (dep x <= dep i + 1) by (apply Hh; cbn; auto). lia.
Qed.

Lemma finv_bound dep P cur got st : finv dep P cur got st -> length (P ++ cur ++ ff_todo st) <= npts.
Proof.
  intros H. rewrite <- (seq_length npts 0). apply NoDup_incl_length; [apply H|].
  intros k Hk. apply in_seq. apply (v_done _ _ _ _ _ H) in Hk. apply (v_lt _ _ _ _ _ H) in Hk. lia.
Qed.

Lemma loop_finv fuel : forall dep P st, finv dep P [] [] st -> npts <= fuel + length P ->
  exists st' dep' P', ff_loop_fl fe fuel adj st = Ok st' /\ finv dep' P' [] [] st' /\ ff_todo st' = [].
Proof.
  induction fuel as [|fuel IH]; intros dep P st H Hf; cbn [ff_loop_fl]; destruct (ff_todo st) as [|i rest] eqn:E.
  - eauto 6.
  - exfalso. apply finv_bound in H. rewrite E, !app_length in H. cbn in H. lia.
  - eauto 6.
  - destruct (finv_fold P i (adj i) dep [] _ (fun x h => h) (finv_start dep P i rest st E H)) as [dep' H'].
    apply (IH dep' (P ++ [i])); [now apply finv_finish|]. rewrite app_length. cbn. lia.
Qed.

Let st0 := FF (upd (repeat false npts) 0 true) [0] (repeat 0%Q npts) 0.

Lemma finv0 : finv (fun _ => 0) [] [] [] st0.
Proof.
  assert (forall i, isdone st0 i <-> i = 0) as D.
  { intros i. unfold isdone. cbn [st0 ff_done]. destruct i as [|i].
    - rewrite nth_upd_eq by (rewrite repeat_length; lia). tauto.
    - rewrite nth_upd_neq by lia.
      assert (nth (S i) (repeat false npts) false = false) as ->; [|split; [discriminate|lia]].
      destruct (nth_in_or_default (S i) (repeat false npts) false) as [X|X]; auto. now apply repeat_spec in X. }
  assert (val st0 0 == 0)%Q as V.
  { unfold val. cbn [st0 ff_unw]. destruct npts; reflexivity. }
  constructor; try (intros; cbn in *; tauto).
  - cbn. now rewrite upd_length, repeat_length.
  - cbn. now rewrite repeat_length.
  - intros i. rewrite D. cbn. intuition.
  - cbn. repeat constructor; auto.
  - intros i Hi. apply D in Hi. lia.
  - split; [now apply D|]. split; [reflexivity|exact V].
  - cbn. repeat constructor.
  - intros. lia.
  - intros. lia.
  - intros v Hv. apply D in Hv. subst. unfold near_at. rewrite V, Hpsi0. change (qn 0) with 0%Q. lra.
Qed.

Theorem flood_loop_near : (forall v, v < npts -> reach links 0 v) ->
  exists st, ff_loop_fl fe npts adj st0 = Ok st /\ (tight -> ff_err st = 0) /\
    length (ff_done st) = npts /\ length (ff_unw st) = npts /\
    (forall v, v < npts -> isdone st v) /\
    forall v, v < npts -> (- (qn L * eps) <= val st v - psi v <= qn L * eps)%Q.
Proof.
  intros Hr. destruct (loop_finv npts (fun _ => 0) [] st0 finv0 ltac:(cbn; lia)) as (st & dep & P & E & H & Ht).
  assert (forall v, v < npts -> isdone st v) as Hd.
  { intros v Hv. specialize (Hr v Hv). clear Hv. induction Hr as [|x v Hr IH Hl].
    - apply (v_zero _ _ _ _ _ H).
    - assert (In x P) as HP.
      { apply (v_done _ _ _ _ _ H) in IH. rewrite Ht in IH. cbn in IH. rewrite app_nil_r in IH. exact IH. }
      destruct (Hnb x v Hl) as [g' Hg']. eapply (v_nbr _ _ _ _ _ H); eauto. }
  exists st. split; auto. split; [apply H|]. split; [apply H|]. split; [apply H|]. split; auto.
  intros v Hv. pose proof (v_near _ _ _ _ _ H v (Hd v Hv)) as N. unfold near_at in N.
  pose proof (qn_le _ _ (dep_le _ _ _ _ _ v H (Hd v Hv))) as D. pose proof eps_nonneg.
  assert (qn (dep v) * eps <= qn L * eps)%Q by nra. lra.
Qed.
End Loop.
