(** A flow solver that can be run: successive shortest paths, its answer checked by
    prices of the nodes and handed to exhaustive search if the check fails. It meets
    the contract of the external solver; it is used in examples only. *)
From Verif Require Import Base BaseLemmas GraphModel GraphSpec McfModel McfSpec FlowProofs OracleProofs.
From Coq Require Import ZifyBool.
Set Default Goal Selector "!".

(** * The check *)
Definition price_at (p : list Z) (v : nat) : Z := nth v p 0%Z.
Definition reduced (p : list Z) (a : arc) : Z := (a_cost a + price_at p (a_from a) - price_at p (a_to a))%Z.
Definition arc_ok (n : nat) (p : list Z) (af : arc * Z) : bool :=
  let '(a, x) := af in
  (a_from a <? n) && (a_to a <? n) && (0 <=? x)%Z && (x <=? a_cap a)%Z &&
  ((x =? a_cap a)%Z || (0 <=? reduced p a)%Z) && ((x =? 0)%Z || (reduced p a <=? 0)%Z).
Definition certified (arcs : list arc) (supply f p : list Z) : bool :=
  (length f =? length arcs) && forallb (arc_ok (length supply) p) (combine arcs f) && balanced arcs supply f.

Lemma sumZ_node pick (p : list Z) n arcs : forall f, (forall a, In a arcs -> pick a < n) -> length f = length arcs ->
  sumZ (map (fun v => price_at p v * node_sum pick arcs f v)%Z (seq 0 n))
  = sumZ (map (fun af => price_at p (pick (fst af)) * snd af)%Z (combine arcs f)).
Proof.
  induction arcs as [|a arcs IH]; intros f Hn Hf.
  - cbn. generalize (seq 0 n). induction l as [|v l IHl]; [reflexivity|]. cbn [map]. rewrite sumZ_cons, IHl. unfold node_sum. cbn. lia.
  - destruct f as [|x f]; [discriminate|]. cbn [combine map]. rewrite sumZ_cons. cbn [fst snd].
    rewrite <- (IH f) by (try (intros b I; apply Hn; now right); cbn in Hf; lia).
    assert (forall l, NoDup l ->
      sumZ (map (fun v => price_at p v * node_sum pick (a :: arcs) (x :: f) v)%Z l)
      = ((if in_dec Nat.eq_dec (pick a) l then price_at p (pick a) * x else 0)
         + sumZ (map (fun v => price_at p v * node_sum pick arcs f v) l))%Z) as K.
    { induction l as [|v l IHl]; intros Nd; [reflexivity|]. inversion Nd as [|? ? Ni Nd']; subst. cbn [map]. rewrite !sumZ_cons, IHl by auto.
      unfold node_sum at 1. cbn [combine map]. rewrite sumZ_cons. cbn [fst snd]. fold (node_sum pick arcs f v).
      destruct (Nat.eqb_spec (pick a) v) as [E|E].
      - subst v. destruct (in_dec Nat.eq_dec (pick a) (pick a :: l)) as [_|N]; [|exfalso; apply N; now left].
        destruct (in_dec Nat.eq_dec (pick a) l); [contradiction|]. lia.
      - destruct (in_dec Nat.eq_dec (pick a) l) as [I|I]; destruct (in_dec Nat.eq_dec (pick a) (v :: l)) as [J|J].
        + lia.
        + exfalso. apply J. now right.
        + destruct J as [J|J]; [congruence|contradiction].
        + lia. }
    rewrite K by apply seq_NoDup. destruct (in_dec Nat.eq_dec (pick a) (seq 0 n)) as [_|N]; [reflexivity|].
    exfalso. apply N, in_seq. specialize (Hn a (or_introl eq_refl)). lia.
Qed.

(** Price of a flow, written with reduced costs. *)
Lemma cost_reduced arcs supply f p : (forall a, In a arcs -> a_from a < length supply /\ a_to a < length supply) ->
  feasible arcs supply f ->
  (flow_cost arcs f = sumZ (map (fun af => reduced p (fst af) * snd af) (combine arcs f))
                      - sumZ (map (fun v => price_at p v * nth v supply 0) (seq 0 (length supply))))%Z.
Proof.
  intros Hn (L & _ & B).
  assert (sumZ (map (fun v => price_at p v * nth v supply 0)%Z (seq 0 (length supply)))
    = (sumZ (map (fun v => price_at p v * node_sum a_from arcs f v) (seq 0 (length supply)))
       - sumZ (map (fun v => price_at p v * node_sum a_to arcs f v) (seq 0 (length supply))))%Z) as ->.
  { assert (forall l, (forall v, In v l -> v < length supply) ->
      sumZ (map (fun v => price_at p v * nth v supply 0)%Z l)
      = (sumZ (map (fun v => price_at p v * node_sum a_from arcs f v) l) - sumZ (map (fun v => price_at p v * node_sum a_to arcs f v) l))%Z) as K.
    { induction l as [|v l IH]; intros H; [reflexivity|]. cbn [map]. rewrite !sumZ_cons, IH by (intros; apply H; now right).
      rewrite <- (B v (H v (or_introl eq_refl))). lia. }
    apply K. intros v I. apply in_seq in I. lia. }
  rewrite !sumZ_node; auto; try (intros a I; now apply Hn).
  unfold flow_cost. clear. generalize (combine arcs f). induction l as [|[a x] l IH]; [reflexivity|].
  cbn [map]. rewrite !sumZ_cons, IH. cbn [fst snd]. unfold reduced. lia.
Qed.

Theorem certified_optimal arcs supply f p : certified arcs supply f p = true -> optimal arcs supply f.
Proof.
  unfold certified. intros H. apply andb_prop in H as [H Hb]. apply andb_prop in H as [L H]. apply Nat.eqb_eq in L.
  rewrite forallb_forall in H.
  assert (forall i, i < length arcs -> arc_ok (length supply) p (nth i arcs (Arc 0 0 0 0), nth i f 0%Z) = true) as Hi.
  { intros i B. apply H. rewrite <- combine_nth by auto. apply nth_In. rewrite combine_length. lia. }
  assert (forall a, In a arcs -> a_from a < length supply /\ a_to a < length supply) as Hn.
  { intros a I. apply (In_nth _ _ (Arc 0 0 0 0)) in I as (i & B & <-). specialize (Hi i B). unfold arc_ok in Hi. lia. }
  assert (feasible arcs supply f) as Hf.
  { split; [exact L|]. split.
    - intros i B. specialize (Hi i B). unfold arc_ok in Hi. lia.
    - intros v B. unfold balanced in Hb. rewrite forallb_forall in Hb. specialize (Hb v). rewrite in_seq in Hb. lia. }
  split; [exact Hf|]. intros f' Hf'. rewrite (cost_reduced _ _ _ p Hn Hf), (cost_reduced _ _ _ p Hn Hf').
  destruct Hf' as (L' & C' & _).
  assert (sumZ (map (fun af => reduced p (fst af) * snd af)%Z (combine arcs f)) <= sumZ (map (fun af => reduced p (fst af) * snd af)%Z (combine arcs f')))%Z as X; [|lia].
  clear - L L' C' Hi. revert f f' L L' C' Hi. induction arcs as [|a arcs IH]; intros f f' L L' C' Hi.
  { cbn. lia. }
  destruct f as [|x f]; [discriminate|]. destruct f' as [|y f']; [discriminate|].
  cbn [combine map]. rewrite !sumZ_cons. cbn [fst snd].
  assert (reduced p a * x <= reduced p a * y)%Z as X.
  { specialize (Hi 0 ltac:(cbn; lia)). specialize (C' 0 ltac:(cbn; lia)). cbn [nth] in *. unfold arc_ok in Hi.
    destruct (Z_lt_le_dec (reduced p a) 0) as [S|S].
    - assert (x = a_cap a) as -> by lia. nia.
    - destruct (Z.eq_dec (reduced p a) 0) as [->|N]; [lia|]. assert (x = 0%Z) as -> by lia. nia. }
  specialize (IH f f' ltac:(cbn in L; lia) ltac:(cbn in L'; lia)).
  assert (sumZ (map (fun af => reduced p (fst af) * snd af)%Z (combine arcs f)) <= sumZ (map (fun af => reduced p (fst af) * snd af)%Z (combine arcs f')))%Z; [|lia].
  apply IH.
  - intros i B. apply (C' (S i)). cbn; lia.
  - intros i B. apply (Hi (S i)). cbn; lia.
Qed.

(** * The search *)
(** A move: send one unit along an arc ([true]) or take one back. *)
Definition moves (arcs : list arc) (f : list Z) : list (nat * bool * nat * nat * Z) :=
  flat_map (fun iaf => let '(i, (a, x)) := iaf in
    (if (x <? a_cap a)%Z then [(i, true, a_from a, a_to a, a_cost a)] else [])
    ++ (if (0 <? x)%Z then [(i, false, a_to a, a_from a, - a_cost a)%Z] else []))
  (combine (seq 0 (length arcs)) (combine arcs f)).
(** One round of relaxation; the label of a node is its distance and the moves to it. *)
Definition label : Type := option (Z * list (nat * bool)).
Definition relax (ms : list (nat * bool * nat * nat * Z)) (d : list label) : bool * list label :=
  fold_left (fun bd m => let '(i, fw, u, v, c) := m in let d := snd bd in
    match nth u d None with
    | None => bd
    | Some (du, path) =>
        match nth v d None with
        | Some (dv, _) => if (du + c <? dv)%Z then (true, upd d v (Some (du + c, (i, fw) :: path)%Z)) else bd
        | None => (true, upd d v (Some (du + c, (i, fw) :: path)%Z))
        end
    end) ms (false, d).
Fixpoint rounds (k : nat) (ms : list (nat * bool * nat * nat * Z)) (d : list label) : list label :=
  match k with
  | O => d
  | S k => let '(changed, d) := relax ms d in if changed then rounds k ms d else d
  end.
Definition apply_path (f : list Z) (path : list (nat * bool)) : list Z :=
  fold_left (fun (f : list Z) (m : nat * bool) => upd f (fst m) (nth (fst m) f 0%Z + (if snd m then 1 else -1)%Z)%Z) path f.
Definition excess (arcs : list arc) (supply f : list Z) (v : nat) : Z :=
  (nth v supply 0 - (node_sum a_from arcs f v - node_sum a_to arcs f v))%Z.
Definition find_node (q : Z -> bool) (arcs : list arc) (supply f : list Z) : list nat :=
  filter (fun v => q (excess arcs supply f v)) (seq 0 (length supply)).
Fixpoint augment (fuel : nat) (arcs : list arc) (supply f : list Z) : list Z :=
  match fuel with
  | O => f
  | S fuel =>
      match find_node (fun x => 0 <? x)%Z arcs supply f with
      | [] => f
      | s :: _ =>
          let n := length supply in
          let d := rounds n (moves arcs f) (upd (repeat (None : label) n) s (Some (0%Z, []))) in
          match filter (fun v => match nth v d None with Some _ => true | None => false end)
                       (find_node (fun x => x <? 0)%Z arcs supply f) with
          | [] => f
          | t :: ts =>
              let dist v := match nth v d None with Some (z, _) => z | None => 0%Z end in
              let best := fold_left (fun b v => if (dist v <? dist b)%Z then v else b) ts t in
              match nth best d None with
              | Some (_, path) => augment fuel arcs supply (apply_path f path)
              | None => f
              end
          end
      end
  end.
Definition node_prices (arcs : list arc) (supply f : list Z) : list Z :=
  let n := length supply in
  map (fun l : label => match l with Some (z, _) => z | None => 0%Z end)
    (rounds n (moves arcs f) (repeat (Some (0%Z, []) : label) n)).

Definition cert_smcf (arcs : list arc) (supply : list Z) : option (list Z) :=
  let f := augment (Z.to_nat (sumZ (map Z.abs supply))) arcs supply (repeat 0%Z (length arcs)) in
  if certified arcs supply f (node_prices arcs supply f) then Some f else brute arcs supply.

Theorem cert_smcf_sound : smcf_sound cert_smcf.
Proof.
  intros arcs supply f. unfold cert_smcf. destruct (certified _ _ _ _) eqn:C.
  - intros [= <-]. eapply certified_optimal, C.
  - apply brute_sound.
Qed.
Theorem cert_smcf_complete : smcf_complete cert_smcf.
Proof.
  intros arcs supply Hf. unfold cert_smcf. destruct (certified _ _ _ _); [discriminate|]. now apply brute_complete.
Qed.
