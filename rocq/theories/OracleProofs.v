(** The contract assumed of the external flow solver can be met: exhaustive
    search over all integer flows meets it. *)
From Verif Require Import Base BaseLemmas GraphModel GraphSpec McfModel McfSpec FlowProofs.
From Coq Require Import ZifyBool.
Set Default Goal Selector "!".

Definition range (cap : Z) : list Z := map Z.of_nat (seq 0 (Z.to_nat (cap + 1))).
Lemma range_In cap x : In x (range cap) <-> (0 <= x <= cap)%Z.
Proof.
  unfold range. rewrite in_map_iff. split.
  - intros (n & <- & H). apply in_seq in H. lia.
  - intros H. exists (Z.to_nat x). split; [lia|]. apply in_seq. lia.
Qed.

Fixpoint all_flows (arcs : list arc) : list (list Z) :=
  match arcs with
  | [] => [[]]
  | a :: t => flat_map (fun x => map (cons x) (all_flows t)) (range (a_cap a))
  end.

Definition in_caps (arcs : list arc) (f : list Z) : Prop :=
  length f = length arcs /\
  forall i, i < length arcs -> (0 <= nth i f 0 <= a_cap (nth i arcs (Arc 0 0 0 0)))%Z.

Lemma all_flows_In arcs : forall f, In f (all_flows arcs) <-> in_caps arcs f.
Proof.
  induction arcs as [|a t IH]; intros f; cbn [all_flows].
  - unfold in_caps. cbn. split.
    + intros [<-|[]]. split; [reflexivity|]. intros; lia.
    + intros [H _]. left. destruct f; [auto|discriminate].
  - rewrite in_flat_map. split.
    + intros (x & Hx & H). apply in_map_iff in H as (f' & <- & H). apply IH in H as [HL H].
      apply range_In in Hx. split; [cbn; lia|]. intros [|i] Hi; [exact Hx|]. apply H. cbn in Hi. lia.
    + intros [HL H]. destruct f as [|x f]; [discriminate|]. exists x. split.
      * apply range_In. apply (H 0). cbn; lia.
      * apply in_map. apply IH. split; [cbn in HL; lia|]. intros i Hi. apply (H (S i)). cbn; lia.
Qed.

Definition balanced (arcs : list arc) (supply f : list Z) : bool :=
  forallb (fun v => (node_sum a_from arcs f v - node_sum a_to arcs f v =? nth v supply 0)%Z)
    (seq 0 (length supply)).

Definition feasible_flows (arcs : list arc) (supply : list Z) : list (list Z) :=
  filter (balanced arcs supply) (all_flows arcs).

Lemma feasible_flows_In arcs supply f : In f (feasible_flows arcs supply) <-> feasible arcs supply f.
Proof.
  unfold feasible_flows. rewrite filter_In, all_flows_In. unfold balanced. rewrite forallb_forall.
  unfold in_caps, feasible. split.
  - intros [[H1 H2] H3]. repeat split; auto; try apply H2; auto.
    intros v Hv. specialize (H3 v). rewrite in_seq in H3. lia.
  - intros (H1 & H2 & H3). repeat split; auto; try apply H2; auto.
    intros v Hv. apply in_seq in Hv. specialize (H3 v). lia.
Qed.

Definition cheaper (arcs : list arc) (f f' : list Z) : list Z :=
  if (flow_cost arcs f <=? flow_cost arcs f')%Z then f else f'.
Definition brute (arcs : list arc) (supply : list Z) : option (list Z) :=
  match feasible_flows arcs supply with
  | [] => None
  | f :: t => Some (fold_left (cheaper arcs) t f)
  end.

Lemma fold_cheaper arcs t : forall f,
  In (fold_left (cheaper arcs) t f) (f :: t) /\
  forall f', In f' (f :: t) -> (flow_cost arcs (fold_left (cheaper arcs) t f) <= flow_cost arcs f')%Z.
Proof.
  induction t as [|x t IH]; intros f; cbn [fold_left].
  - split; [now left|]. intros f' [<-|[]]. lia.
  - destruct (IH (cheaper arcs f x)) as [A B].
    assert (flow_cost arcs (cheaper arcs f x) <= flow_cost arcs f /\
            flow_cost arcs (cheaper arcs f x) <= flow_cost arcs x)%Z as [C D].
    { unfold cheaper. destruct (Z.leb_spec (flow_cost arcs f) (flow_cost arcs x)); lia. }
    split.
    + destruct A as [A|A]; [|now right; right]. rewrite <- A. unfold cheaper. destruct (_ <=? _)%Z; cbn; auto.
    + pose proof (B _ (or_introl eq_refl)). intros f' [<-|[<-|H']]; [lia|lia|]. apply B. now right.
Qed.

Theorem brute_sound : smcf_sound brute.
Proof.
  intros arcs supply f. unfold brute. destruct (feasible_flows arcs supply) as [|f0 t] eqn:E; [discriminate|].
  intros H. injection H as <-. destruct (fold_cheaper arcs t f0) as [A B]. split.
  - apply feasible_flows_In. now rewrite E.
  - intros f' Hf. apply B. rewrite <- E. now apply feasible_flows_In.
Qed.

Theorem brute_complete : smcf_complete brute.
Proof.
  intros arcs supply [f Hf]. unfold brute. apply feasible_flows_In in Hf.
  destruct (feasible_flows arcs supply); [destruct Hf|discriminate].
Qed.
