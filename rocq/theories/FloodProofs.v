(** flood_fill: loop invariant, soundness, exactness. *)
From Verif Require Import Base BaseLemmas GraphModel GraphSpec McfModel McfSpec PhaseProofs.
From Coq Require Import ZifyBool.
Set Default Goal Selector "!".

Definition close (x y : Q) : Prop := (-(1 # 1000) <= x - y <= 1 # 1000)%Q.

Lemma close_bool x y : Qle_bool (x - y) (1 # 1000) && Qle_bool (- (1 # 1000)) (x - y) = true <-> close x y.
Proof. rewrite andb_true_iff, !Qle_bool_iff. unfold close. tauto. Qed.

Lemma close_eq x y : (x == y)%Q -> close x y.
Proof. intros H. unfold close. split; lra. Qed.

Section Loop.
Context (adj : nat -> list (nat * Q)) (npts : nat).
Context (Hadj : forall i j gr, In (j, gr) (adj i) -> j < npts).
Context (Rch : nat -> Prop) (Rstep : forall i j gr, Rch i -> In (j, gr) (adj i) -> Rch j).

Definition isdone (st : ff) (i : nat) : Prop := nth i (ff_done st) false = true.
Definition val (st : ff) (i : nat) : Q := nth i (ff_unw st) 0%Q.

(** [P]: points whose neighbours have all been handled; [cur]: the point being
    handled with the neighbours [got] handled so far. *)
Record inv (P : list nat) (cur : list nat) (got : list (nat * Q)) (st : ff) : Prop := {
  i_len1 : length (ff_done st) = npts;
  i_len2 : length (ff_unw st) = npts;
  i_done : forall i, isdone st i <-> In i (P ++ cur ++ ff_todo st);
  i_nodup : NoDup (P ++ cur ++ ff_todo st);
  i_lt : forall i, isdone st i -> i < npts;
  i_nbr : forall i j gr, In i P -> In (j, gr) (adj i) ->
      isdone st j /\ (ff_err st = 0 -> close (val st i + gr) (val st j));
  i_got : forall i j gr, In i cur -> In (j, gr) got ->
      isdone st j /\ (ff_err st = 0 -> close (val st i + gr) (val st j));
  i_rch : forall i, isdone st i -> Rch i;
  i_zero : isdone st 0 /\ (val st 0 == 0)%Q
}.

Lemma inv_nbr P i got j gr st : In (j, gr) (adj i) -> inv P [i] got st ->
  inv P [i] (got ++ [(j, gr)]) (ff_nbr i st (j, gr)).
Proof.
  intros Hin H. destruct H as [L1 L2 Hd Hn Hlt Hnb Hgot Hr Hz].
  assert (isdone st i) as Di by (apply Hd; rewrite !in_app_iff; cbn; auto).
  pose proof (Hadj _ _ _ Hin) as Hj.
  unfold ff_nbr. destruct (nth j (ff_done st) false) eqn:E; cbn [negb].
  - destruct (Qle_bool _ _ && Qle_bool _ _) eqn:C.
    + apply close_bool in C. constructor; auto. intros i' j' g' Hi' Hg'. apply in_app_iff in Hg' as [Hg'|Hg'].
      * apply (Hgot i' j' g'); auto.
      * destruct Hg' as [X|[]]. injection X as <- <-. destruct Hi' as [<-|[]]. split; auto.
    + constructor; cbn [ff_done ff_todo ff_unw ff_err]; auto.
      * intros i' j' g' H1 H2. split; [apply (Hnb i' j' g'); auto|lia].
      * intros i' j' g' H1 H2. split; [|lia]. apply in_app_iff in H2 as [H2|H2].
        -- apply (Hgot i' j' g'); auto.
        -- destruct H2 as [X|[]]. injection X as <- <-. exact E.
  - set (st' := FF (upd (ff_done st) j true) (ff_todo st ++ [j])
                   (upd (ff_unw st) j (nth i (ff_unw st) 0%Q + gr)%Q) (ff_err st)).
    assert (forall k, isdone st' k <-> k = j \/ isdone st k) as Dst.
    { intros k. unfold isdone. cbn [st' ff_done]. destruct (Nat.eq_dec k j) as [->|N].
      - rewrite nth_upd_eq by lia. tauto.
      - rewrite nth_upd_neq by auto. intuition. }
    assert (forall k, isdone st k -> val st' k = val st k) as Vst.
    { intros k Hk. unfold val. cbn [st' ff_unw]. rewrite nth_upd_neq; auto.
      intros ->. unfold isdone in Hk. congruence. }
    assert (val st' j = (val st i + gr)%Q) as Vj.
    { unfold val. cbn [st' ff_unw]. now rewrite nth_upd_eq by lia. }
    assert (~ isdone st j) as Nj by (unfold isdone; congruence).
    constructor.
    + cbn. now rewrite upd_length.
    + cbn. now rewrite upd_length.
    + intros k. rewrite Dst, Hd. cbn [st' ff_todo]. rewrite !in_app_iff. cbn. intuition.
    + cbn [st' ff_todo]. rewrite !app_assoc. rewrite app_assoc in Hn.
      apply NoDup_app_intro; auto; [repeat constructor; auto|].
      intros k H1 H2. destruct H2 as [<-|[]]. apply Nj. apply Hd. rewrite app_assoc. auto.
    + intros k Hk. apply Dst in Hk as [->|Hk]; auto.
    + intros i' j' g' H1 H2. destruct (Hnb i' j' g' H1 H2) as [A B].
      assert (isdone st i') by (apply Hd; rewrite in_app_iff; auto).
      split; [apply Dst; auto|]. intros He. rewrite !Vst by auto. apply B, He.
    + intros i' j' g' H1 H2. destruct H1 as [<-|[]]. apply in_app_iff in H2 as [H2|H2].
      * destruct (Hgot i j' g' (or_introl eq_refl) H2) as [A B].
        split; [apply Dst; auto|]. intros He. rewrite !Vst by auto. apply B, He.
      * destruct H2 as [X|[]]. injection X as <- <-. split; [apply Dst; auto|].
        intros _. rewrite Vj, Vst by auto. apply close_eq. reflexivity.
    + intros k Hk. apply Dst in Hk as [->|Hk]; auto. apply Rstep with i gr; auto.
    + destruct Hz as [Z1 Z2]. split; [apply Dst; auto|]. now rewrite Vst.
Qed.

Lemma inv_fold P i l : forall got st, (forall x, In x l -> In x (adj i)) -> inv P [i] got st ->
  inv P [i] (got ++ l) (fold_left (ff_nbr i) l st).
Proof.
  induction l as [|[j gr] l IH]; intros got st Hl H; cbn [fold_left].
  - now rewrite app_nil_r.
  - replace (got ++ (j, gr) :: l) with ((got ++ [(j, gr)]) ++ l) by (now rewrite <- app_assoc).
    apply IH; [intros; apply Hl; now right|]. apply inv_nbr; auto. apply Hl. now left.
Qed.

Lemma inv_start P i rest st : ff_todo st = i :: rest -> inv P [] [] st ->
  inv P [i] [] (FF (ff_done st) rest (ff_unw st) (ff_err st)).
Proof.
  intros E [L1 L2 Hd Hn Hlt Hnb Hgot Hr Hz]. rewrite E in *. cbn [app] in *.
  constructor; auto; cbn [ff_todo]; auto. intros ? ? ? ? [].
Qed.

Lemma inv_finish P i st : inv P [i] (adj i) st -> inv (P ++ [i]) [] [] st.
Proof.
  intros [L1 L2 Hd Hn Hlt Hnb Hgot Hr Hz]. constructor; auto.
  - intros k. rewrite Hd. rewrite <- app_assoc. cbn. tauto.
  - rewrite <- app_assoc. exact Hn.
  - intros i' j' g' H1 H2. apply in_app_iff in H1 as [H1|H1]; [apply Hnb; auto|].
    destruct H1 as [<-|[]]. apply Hgot; auto. now left.
  - intros ? ? ? [].
Qed.

Lemma inv_bound P cur got st : inv P cur got st -> length (P ++ cur ++ ff_todo st) <= npts.
Proof.
  intros H. rewrite <- (seq_length npts 0). apply NoDup_incl_length; [apply H|].
  intros k Hk. apply in_seq. apply (i_done _ _ _ _ H) in Hk. apply (i_lt _ _ _ _ H) in Hk. lia.
Qed.

Lemma loop_inv fuel : forall P st, inv P [] [] st -> npts <= fuel + length P ->
  exists st' P', ff_loop fuel adj st = Ok st' /\ inv P' [] [] st' /\ ff_todo st' = [].
Proof.
  induction fuel as [|fuel IH]; intros P st H Hf; cbn [ff_loop]; destruct (ff_todo st) as [|i rest] eqn:E.
  - eauto.
  - exfalso. apply inv_bound in H. rewrite E, !app_length in H. cbn in H. lia.
  - eauto.
  - apply (IH (P ++ [i])).
    + apply inv_finish. apply (inv_fold P i (adj i) []); auto. now apply inv_start.
    + rewrite app_length. cbn. lia.
Qed.

(** Exactness: values follow a potential, no error is counted. *)
Context (phi : nat -> Q).
Definition exact (st : ff) : Prop :=
  ff_err st = 0 /\ forall i, isdone st i -> (val st i == phi i - phi 0)%Q.

Lemma exact_fold (i : nat) l : forall st,
  length (ff_done st) = npts -> length (ff_unw st) = npts -> isdone st i ->
  (forall j gr, In (j, gr) l -> j < npts /\ (gr == phi j - phi i)%Q) -> exact st ->
  exact (fold_left (ff_nbr i) l st).
Proof.
  induction l as [|[j gr] l IH]; intros st L1 L2 Di Hl [He Hx]; cbn [fold_left]; [split; auto|].
  destruct (Hl j gr (or_introl eq_refl)) as [Hj Hg].
  assert (isdone (ff_nbr i st (j, gr)) i /\ length (ff_done (ff_nbr i st (j, gr))) = npts
     /\ length (ff_unw (ff_nbr i st (j, gr))) = npts /\ exact (ff_nbr i st (j, gr))) as (A & B & C & D).
  { unfold ff_nbr. destruct (nth j (ff_done st) false) eqn:E; cbn [negb].
    - assert (Qle_bool (nth i (ff_unw st) 0%Q + gr - nth j (ff_unw st) 0%Q) (1 # 1000) &&
        Qle_bool (- (1 # 1000)) (nth i (ff_unw st) 0%Q + gr - nth j (ff_unw st) 0%Q) = true) as ->.
      { apply close_bool, close_eq. pose proof (Hx i Di) as X. pose proof (Hx j E) as Y. unfold val in X, Y.
        rewrite X, Y, Hg. ring. }
      repeat split; auto.
    - split; [|split; [|split; [|split]]]; cbn [ff_done ff_unw ff_err]; try (now rewrite upd_length); auto.
      + unfold isdone in *. cbn [ff_done]. destruct (Nat.eq_dec i j) as [->|N].
        * now rewrite nth_upd_eq by lia.
        * now rewrite nth_upd_neq by auto.
      + intros k Hk. unfold isdone, val in *. cbn [ff_done ff_unw] in *. destruct (Nat.eq_dec k j) as [->|N].
        * rewrite nth_upd_eq by lia. rewrite (Hx i Di), Hg. ring.
        * rewrite nth_upd_neq by auto. rewrite nth_upd_neq in Hk by auto. apply Hx; auto. }
  apply IH; auto. intros; apply Hl. now right.
Qed.

Context (Hphi : forall i j gr, In (j, gr) (adj i) -> (gr == phi j - phi i)%Q).

Lemma loop_exact fuel : forall P st st', inv P [] [] st -> exact st ->
  ff_loop fuel adj st = Ok st' -> exact st'.
Proof.
  induction fuel as [|fuel IH]; intros P st st' H Hx; cbn [ff_loop]; destruct (ff_todo st) as [|i rest] eqn:E;
    intros R; try discriminate; try (injection R as <-; auto; fail).
  pose proof (inv_start P i rest st E H) as H0.
  assert (inv (P ++ [i]) [] [] (fold_left (ff_nbr i) (adj i) (FF (ff_done st) rest (ff_unw st) (ff_err st)))) as H1.
  { apply inv_finish. apply (inv_fold P i (adj i) []); auto. }
  apply (IH _ _ _ H1); auto. apply exact_fold.
  - apply H0.
  - apply H0.
  - apply (i_done _ _ _ _ H0). rewrite in_app_iff. right. now left.
  - intros j gr Hg. split; [eapply Hadj|eapply Hphi]; eauto.
  - exact Hx.
Qed.
End Loop.

(** * flood_fill *)
Definition total_grad (m : mode) (indata : list Q) (links : list (nat * nat)) (flows : list Z) (i : nat) : Q :=
  nth i (link_grads m indata links flows) 0%Q.

Lemma link_grads_length m indata links flows : length (link_grads m indata links flows) = length links.
Proof. unfold link_grads. now rewrite map_length, seq_length. Qed.

Lemma nbrs_In links grads i j gr : length grads = length links ->
  In (j, gr) (nbrs links grads i) <->
  exists n a b, n < length links /\ nth n links (0, 0) = (a, b) /\
    ((a = i /\ b = j /\ gr = nth n grads 0%Q) \/ (b = i /\ a = j /\ gr = (- nth n grads 0)%Q)).
Proof.
  intros HL. unfold nbrs. rewrite in_flat_map. split.
  - intros ([[a b] v] & Hc & Hin). apply (In_nth _ _ ((0, 0), 0%Q)) in Hc as (n & Hn & E).
    rewrite combine_length, HL, Nat.min_id in Hn. rewrite combine_nth in E by auto.
    injection E as E1 E2. exists n, a, b. split; auto. split; auto.
    apply in_app_iff in Hin as [Hin|Hin].
    + destruct (Nat.eqb_spec a i); [|destruct Hin]. destruct Hin as [X|[]]. injection X as <- <-. left. auto.
    + destruct (Nat.eqb_spec b i); [|destruct Hin]. destruct Hin as [X|[]]. injection X as <- <-.
      right. rewrite <- E2. auto.
  - intros (n & a & b & Hn & E & H). exists ((a, b), nth n grads 0%Q). split.
    + rewrite <- E. rewrite <- (combine_nth links grads n (0, 0) 0%Q) by auto. apply nth_In.
      rewrite combine_length. lia.
    + apply in_app_iff. destruct H as [(-> & -> & ->)|(-> & -> & ->)]; rewrite Nat.eqb_refl; [left|right]; now left.
Qed.

Lemma max_point_spec links npts : max_point links = Ok npts ->
  (forall a b, In (a, b) links -> a < npts /\ b < npts) /\ 0 < npts /\ links <> [].
Proof.
  unfold max_point. destruct links as [|l t]; [discriminate|]. intros H.
  assert (npts = list_max (flat_map (fun l => [fst l; snd l]) (l :: t)) + 1) as -> by congruence. clear H.
  split; [|split; [lia|discriminate]].
  intros a b Hin. remember (list_max (flat_map (fun l => [fst l; snd l]) (l :: t))) as m eqn:Em.
  assert (Forall (fun k => k <= m) (flat_map (fun l => [fst l; snd l]) (l :: t))) as F by (apply list_max_le; lia).
  rewrite Forall_forall in F.
  assert (a <= m /\ b <= m); [|lia].
  split; apply F; apply in_flat_map; exists (a, b); cbn; auto.
Qed.

Lemma max_point_upper links npts N : max_point links = Ok npts ->
  (forall a b, In (a, b) links -> a < N /\ b < N) -> npts <= N.
Proof.
  unfold max_point. destruct links as [|l t]; [discriminate|]. intros H HN.
  assert (npts = list_max (flat_map (fun l => [fst l; snd l]) (l :: t)) + 1) as -> by congruence. clear H.
  assert (list_max (flat_map (fun l => [fst l; snd l]) (l :: t)) <= N - 1); [|destruct l as [a b];
    destruct (HN a b (or_introl eq_refl)); lia].
  apply list_max_le, Forall_forall. intros k Hk. apply in_flat_map in Hk as ([a b] & Hin & Hk).
  apply HN in Hin. destruct Hk as [<-|[<-|[]]]; cbn; lia.
Qed.

Section FF.
Context (indata : list Q) (links : list (nat * nat)) (flows : list Z) (m : mode) (npts : nat).
Context (Hm : m <> OtherMode) (HF : length links = length flows) (HN : max_point links = Ok npts)
        (HI : length indata = match m with Gradients => length links | _ => npts end).
Let grads := link_grads m indata links flows.
Let adj := nbrs links grads.
Let st0 := FF (upd (repeat false npts) 0 true) [0] (repeat 0%Q npts) 0.

Lemma adj_lt i j gr : In (j, gr) (adj i) -> j < npts.
Proof.
  intros H. apply nbrs_In in H as (n & a & b & Hn & E & H); [|apply link_grads_length].
  destruct (max_point_spec links npts HN) as [K _].
  destruct (K a b) as [K1 K2]; [rewrite <- E; now apply nth_In|]. destruct H as [(_ & <- & _)|(_ & <- & _)]; auto.
Qed.

Lemma adj_reach i j gr : reach links 0 i -> In (j, gr) (adj i) -> reach links 0 j.
Proof.
  intros Hr H. apply nbrs_In in H as (n & a & b & Hn & E & H); [|apply link_grads_length].
  assert (In (a, b) links) by (rewrite <- E; now apply nth_In).
  apply reach_step with i; auto. destruct H as [(<- & <- & _)|(<- & <- & _)]; auto.
Qed.

Lemma inv0 : inv adj npts (reach links 0) [] [] [] st0.
Proof.
  destruct (max_point_spec links npts HN) as (_ & Hpos & _).
  assert (forall i, isdone st0 i <-> i = 0) as D.
  { intros i. unfold isdone. cbn [st0 ff_done]. destruct i as [|i].
    - rewrite nth_upd_eq by (rewrite repeat_length; lia). tauto.
    - rewrite nth_upd_neq by lia.
      assert (nth (S i) (repeat false npts) false = false) as ->; [|split; [discriminate|lia]].
      destruct (nth_in_or_default (S i) (repeat false npts) false) as [X|X]; auto. now apply repeat_spec in X. }
  constructor.
  - cbn. now rewrite upd_length, repeat_length.
  - cbn. now rewrite repeat_length.
  - intros i. rewrite D. cbn. intuition.
  - cbn. repeat constructor; auto.
  - intros i Hi. apply D in Hi. lia.
  - intros ? ? ? [].
  - intros ? ? ? [].
  - intros i Hi. apply D in Hi. subst. constructor.
  - split; [now apply D|]. unfold val. cbn [st0 ff_unw]. destruct npts; reflexivity.
Qed.

Lemma loop_ok : exists st P, ff_loop npts adj st0 = Ok st /\ inv adj npts (reach links 0) P [] [] st /\ ff_todo st = [].
Proof.
  apply (loop_inv adj npts adj_lt (reach links 0) adj_reach npts []); [apply inv0|cbn; lia].
Qed.

(** What the function returns, once the loop is run. *)
Lemma flood_unfold st : ff_loop npts adj st0 = Ok st ->
  flood_fill indata links flows m =
    if 0 <? ff_err st then Err ValueError
    else if negb (forallb (fun b => b) (ff_done st)) then Err ValueError
    else match m with
         | Points => Ok (map (fun x => x + nth 0 indata 0)%Q (ff_unw st))
         | _ => Ok (ff_unw st)
         end.
Proof.
  intros H. unfold flood_fill. rewrite (proj2 (Nat.eqb_eq _ _) HF). cbn [negb]. rewrite HN. cbn [bind].
  revert H. unfold st0, adj, grads. clear -HI Hm. destruct m; [| |contradiction]; intros H;
    rewrite HI, Nat.eqb_refl; cbn [negb]; rewrite H; reflexivity.
Qed.

Definition base : Q := match m with Points => nth 0 indata 0%Q | _ => 0%Q end.

Lemma all_done st : length (ff_done st) = npts ->
  forallb (fun b => b) (ff_done st) = true <-> forall i, i < npts -> isdone st i.
Proof.
  intros HL. rewrite forallb_forall. unfold isdone. split.
  - intros H i Hi. apply H, nth_In. lia.
  - intros H x Hx. apply (In_nth _ _ false) in Hx as (i & Hi & <-). apply H. lia.
Qed.

Lemma out_val st u : length (ff_unw st) = npts ->
  u = match m with
      | Points => map (fun x => x + nth 0 indata 0)%Q (ff_unw st)
      | _ => ff_unw st end ->
  length u = npts /\ forall i, i < npts -> (nth i u 0%Q == val st i + base)%Q.
Proof.
  intros HL ->. unfold base, val. destruct m.
  - split; [now rewrite map_length|]. intros i Hi. rewrite (map_nth' _ _ i 0%Q) by lia. reflexivity.
  - split; auto. intros i Hi. ring.
  - contradiction.
Qed.

Theorem flood_sound u : flood_fill indata links flows m = Ok u ->
  length u = npts /\ (forall v, v < npts -> reach links 0 v) /\ (nth 0 u 0 == base)%Q /\
  forall n a b, n < length links -> nth n links (0, 0) = (a, b) ->
    close (nth b u 0 - nth a u 0)%Q (total_grad m indata links flows n).
Proof.
  destruct loop_ok as (st & P & E & Hinv & Htodo). rewrite (flood_unfold st E).
  destruct (Nat.ltb_spec 0 (ff_err st)) as [|He]; [discriminate|].
  destruct (forallb (fun b => b) (ff_done st)) eqn:Ed; cbn [negb]; [|discriminate].
  intros Hu. assert (u = match m with
      | Points => map (fun x => x + nth 0 indata 0)%Q (ff_unw st)
      | _ => ff_unw st end) as Eu by (destruct m; congruence).
  destruct (out_val st u (i_len2 _ _ _ _ _ _ _ Hinv) Eu) as [HL Hv].
  pose proof (proj1 (all_done st (i_len1 _ _ _ _ _ _ _ Hinv)) Ed) as Hd.
  assert (0 < npts) by (apply (max_point_spec links); auto).
  split; auto. split; [|split].
  - intros v Hv'. apply (i_rch _ _ _ _ _ _ _ Hinv). auto.
  - rewrite Hv by auto. destruct (i_zero _ _ _ _ _ _ _ Hinv) as [_ ->]. ring.
  - intros n a b Hn E'.
    assert (In (a, b) links) as Hl by (rewrite <- E'; now apply nth_In).
    destruct (max_point_spec links npts HN) as [K _]. destruct (K a b Hl) as [Ha Hb].
    assert (In (b, total_grad m indata links flows n) (adj a)) as Hin.
    { apply nbrs_In; [apply link_grads_length|]. exists n, a, b. split; auto. }
    assert (In a P) as HP.
    { pose proof (Hd a Ha) as X. apply (i_done _ _ _ _ _ _ _ Hinv) in X. rewrite Htodo in X. cbn in X.
      rewrite app_nil_r in X. exact X. }
    destruct (i_nbr _ _ _ _ _ _ _ Hinv a b _ HP Hin) as [_ C]. specialize (C ltac:(lia)).
    unfold close in *. rewrite !Hv by auto. split; lra.
Qed.

Theorem flood_exact phi : (forall v, v < npts -> reach links 0 v) ->
  (forall n a b, n < length links -> nth n links (0, 0) = (a, b) ->
     (total_grad m indata links flows n == phi b - phi a)%Q) ->
  exists u, flood_fill indata links flows m = Ok u /\ length u = npts /\
    forall v, v < npts -> (nth v u 0 == phi v - phi 0%nat + base)%Q.
Proof.
  intros Hr Hphi. destruct loop_ok as (st & P & E & Hinv & Htodo).
  assert (forall i j gr, In (j, gr) (adj i) -> (gr == phi j - phi i)%Q) as Hadj.
  { intros i j gr H. apply nbrs_In in H as (n & a & b & Hn & E' & H); [|apply link_grads_length].
    pose proof (Hphi n a b Hn E') as G. unfold total_grad in G. fold grads in G.
    destruct H as [(<- & <- & ->)|(<- & <- & ->)]; rewrite G; ring. }
  assert (exact phi st) as [He Hx].
  { apply (loop_exact adj npts adj_lt (reach links 0) adj_reach phi Hadj npts [] st0 st inv0); auto.
    split; [reflexivity|]. intros i Hi. apply (i_done _ _ _ _ _ _ _ inv0) in Hi.
    destruct Hi as [<-|[]]. destruct (i_zero _ _ _ _ _ _ _ inv0) as [_ ->]. ring. }
  assert (forall v, v < npts -> isdone st v) as Hd.
  { intros v Hv. specialize (Hr v Hv). clear Hv. induction Hr as [|w v Hr IH Hl].
    - apply (i_zero _ _ _ _ _ _ _ Hinv).
    - assert (In w P) as HP.
      { apply (i_done _ _ _ _ _ _ _ Hinv) in IH. rewrite Htodo in IH. cbn in IH. rewrite app_nil_r in IH. exact IH. }
      destruct Hl as [Hl|Hl]; apply (In_nth _ _ (0, 0)) in Hl as (n & Hn & E').
      + apply (i_nbr _ _ _ _ _ _ _ Hinv w v (nth n grads 0%Q) HP). apply nbrs_In; [apply link_grads_length|].
        exists n, w, v. split; [auto|]. split; [exact E'|]. left. auto.
      + apply (i_nbr _ _ _ _ _ _ _ Hinv w v (- nth n grads 0)%Q HP). apply nbrs_In; [apply link_grads_length|].
        exists n, v, w. split; [auto|]. split; [exact E'|]. right. auto. }
  rewrite (flood_unfold st E), He. cbn [Nat.ltb Nat.leb].
  rewrite (proj2 (all_done st (i_len1 _ _ _ _ _ _ _ Hinv)) Hd). cbn [negb].
  exists (match m with
      | Points => map (fun x => x + nth 0 indata 0)%Q (ff_unw st)
      | _ => ff_unw st end).
  destruct (out_val st _ (i_len2 _ _ _ _ _ _ _ Hinv) eq_refl) as [HL Hv].
  split; [destruct m; reflexivity|]. split; auto. intros v Hv'. rewrite Hv, Hx by auto. reflexivity.
Qed.

(** The walk never runs out of fuel, and any failure is a ValueError. *)
Theorem flood_total : exists r, flood_fill indata links flows m = r /\
  match r with Ok _ => True | Err e => e = ValueError end.
Proof.
  destruct loop_ok as (st & P & E & Hinv & Htodo). rewrite (flood_unfold st E).
  eexists. split; [reflexivity|]. destruct (0 <? ff_err st); auto. destruct (negb _); auto. destruct m; auto.
Qed.
End FF.

(** Cases where the arguments are rejected. *)
Theorem flood_rejects indata links flows m e :
  flood_fill indata links flows m = Err e -> e = ValueError.
Proof.
  intros H. pose proof H as H0. unfold flood_fill in H.
  destruct (Nat.eqb_spec (length links) (length flows)) as [HF|]; cbn [negb] in H; [|congruence].
  destruct (max_point links) as [npts|e'] eqn:HN.
  - destruct (Nat.eqb_spec (length indata) (match m with Gradients => length links | _ => npts end)) as [HI|HI].
    + assert (m = OtherMode \/ m <> OtherMode) as [->|Hm] by (destruct m; auto; right; discriminate); [congruence|].
      destruct (flood_total indata links flows m npts Hm HF HN HI) as (r & E & Hr). rewrite H0 in E. now subst r.
    + apply Nat.eqb_neq in HI. cbn [bind] in H. destruct m; try congruence; rewrite HI in H; cbn [negb] in H; congruence.
  - cbn [bind] in H. unfold max_point in HN. destruct links; [|discriminate]. destruct m; congruence.
Qed.
