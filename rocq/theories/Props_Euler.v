(** C61: a triangulation satisfies the contract of the solver exactly when it has
    as many triangles as a triangulation without holes. *)
From Verif Require Import Base BaseLemmas GraphModel GraphSpec GraphProofs EulerSpec EulerProofs.
From Coq Require Import List ZifyBool Lqa Permutation.
Import ListNotations.
Set Default Goal Selector "!".
Local Open Scope nat_scope.

(** For any connected region, of triangles or squares or longer cycles. *)
Theorem C61_euler g : region g -> (planar g <-> euler g).
Proof.
  intros [H1 H2 H3 H4 H5 H6 H7 H8 H9 H10].
  assert (inv (g_npoints g) (g_links g) (g_cycles g)) as Hi by (split; auto).
  assert (0 < g_npoints g) as Hn.
  { destruct (g_cycles g) as [|c l] eqn:E; [contradiction|]. assert (In c (g_cycles g)) as I by (rewrite E; now left). specialize (H6 c (or_introl eq_refl)).
    destruct c as [|a [|b c]]; cbn in H6; try lia. destruct (H7 a b) as [K|K]; [apply in_flat_map; exists (a :: b :: c); split; [auto|now left]| |]; apply H2 in K; lia. }
  pose proof (spans_euler _ _ Hn _ Hi) as S. split.
  - intros P. apply S. exact (pl_span g P).
  - intros E. split; auto. apply S, E.
Qed.

Lemma tri_all n simp : all_sides (delaunay n simp) = tri_sides simp.
Proof.
  unfold all_sides, tri_sides. cbn [delaunay g_cycles]. induction simp as [|[[a b] c] l IH]; [reflexivity|].
  cbn [map flat_map]. rewrite IH. reflexivity.
Qed.

Lemma mem_side_spec s l : mem_side s l = true <-> In s l.
Proof.
  unfold mem_side. rewrite existsb_exists. split.
  - intros ([a b] & I & E). destruct s as [x y]. cbn in E. replace (x, y) with (a, b); [auto|]. f_equal; lia.
  - intros I. exists s. split; [auto|]. rewrite !Nat.eqb_refl. reflexivity.
Qed.

Definition swap (s : nat * nat) : nat * nat := (snd s, fst s).
Lemma swap_swap s : swap (swap s) = s.
Proof. now destruct s. Qed.
Lemma nodup_swap l : NoDup l -> NoDup (map swap l).
Proof. intros H. apply FinFun.Injective_map_NoDup; [|auto]. intros x y E. rewrite <- (swap_swap x), E. apply swap_swap. Qed.

(** A link is a side, read from the lower to the higher corner. *)
Lemma links_sides simp a b : (forall a b c, In (a, b, c) simp -> a <> b /\ b <> c /\ a <> c) ->
  (In (a, b) (create_links simp) <-> a < b /\ (In (a, b) (tri_sides simp) \/ In (b, a) (tri_sides simp))).
Proof.
  intros Hd. rewrite create_links_In. unfold tri_sides. rewrite !in_flat_map. split.
  - intros ([[x y] z] & I & C). pose proof (Hd _ _ _ I) as D. unfold corner in C. rewrite !order_points_spec in C.
    destruct C as [C|[C|C]]; injection C as -> ->; (split; [lia|]).
    + destruct (le_lt_dec x y); [left|right]; exists (x, y, z); (split; [auto|]); cbn; rewrite ?Nat.min_l, ?Nat.max_r, ?Nat.min_r, ?Nat.max_l by lia; auto.
    + destruct (le_lt_dec x z); [right|left]; exists (x, y, z); (split; [auto|]); cbn; rewrite ?Nat.min_l, ?Nat.max_r, ?Nat.min_r, ?Nat.max_l by lia; auto.
    + destruct (le_lt_dec y z); [left|right]; exists (x, y, z); (split; [auto|]); cbn; rewrite ?Nat.min_l, ?Nat.max_r, ?Nat.min_r, ?Nat.max_l by lia; auto.
  - intros (L & [([[x y] z] & I & C)|([[x y] z] & I & C)]); exists (x, y, z); (split; [auto|]); unfold corner; rewrite !order_points_spec; cbn in C;
      destruct C as [C|[C|[C|[]]]]; injection C as -> ->; rewrite ?(Nat.min_l a b), ?(Nat.max_r a b), ?(Nat.min_r b a), ?(Nat.max_l b a) by lia; auto.
Qed.

(** Every link is two sides, or one on the outline. *)
Lemma links_count simp : (forall a b c, In (a, b, c) simp -> a <> b /\ b <> c /\ a <> c) -> NoDup (tri_sides simp) ->
  2 * length (create_links simp) = length (tri_sides simp) + length (outline simp).
Proof.
  intros Hd Nd. set (S := tri_sides simp) in *.
  set (up := fun s : nat * nat => fst s <? snd s). set (tw := fun s : nat * nat => mem_side (swap s) S).
  assert (forall a b, In (a, b) S -> a <> b) as Hne.
  { intros a b I. unfold S, tri_sides in I. apply in_flat_map in I as ([[x y] z] & I & C). pose proof (Hd _ _ _ I) as D. cbn in C.
    destruct C as [C|[C|[C|[]]]]; injection C as <- <-; intuition. }
  assert (forall p q : nat * nat -> bool, length (filter p S) = length (filter (fun s => p s && q s) S) + length (filter (fun s => p s && negb (q s)) S)) as Hsplit.
  { intros p q. clear. induction S as [|s l IH]; [reflexivity|]. cbn [filter]. destruct (p s), (q s); cbn [andb negb length]; lia. }
  assert (Permutation (create_links simp) (filter up S ++ map swap (filter (fun s => negb (up s) && negb (tw s)) S))) as P.
  { apply NoDup_Permutation.
    - apply sorted_NoDup, create_links_sorted.
    - apply NoDup_app_intro; [now apply NoDup_filter|apply nodup_swap; now apply NoDup_filter|].
      intros x I J. apply filter_In in I as [I U]. apply in_map_iff in J as (y & <- & J). apply filter_In in J as [J C].
      apply andb_prop in C as [C1 C2]. unfold tw in C2. apply negb_true_iff in C2. apply mem_side_spec in I. congruence.
    - intros [a b]. rewrite links_sides by auto. fold S. rewrite in_app_iff, filter_In, in_map_iff. unfold up. cbn [fst snd]. split.
      + intros (L & [I|I]); [left; split; [auto|lia]|]. destruct (tw (b, a)) eqn:T.
        * left. unfold tw, swap in T. cbn in T. apply mem_side_spec in T. split; [auto|lia].
        * right. exists (b, a). split; [reflexivity|]. apply filter_In. split; [auto|]. cbn [fst snd]. rewrite T. lia.
      + intros [[I L]|(y & E & I)]; [split; [lia|auto]|]. apply filter_In in I as [I C]. destruct y as [y1 y2]. unfold swap in E. cbn in E. injection E as -> ->. cbn [fst snd] in C.
        pose proof (Hne _ _ I). split; [lia|auto]. }
  apply Permutation_length in P. rewrite app_length, map_length in P.
  assert (length (filter (fun s => negb (up s) && tw s) S) = length (filter (fun s => up s && tw s) S)) as E.
  { rewrite <- (map_length swap (filter (fun s => negb (up s) && tw s) S)). apply Permutation_length, NoDup_Permutation.
    - apply nodup_swap. now apply NoDup_filter.
    - now apply NoDup_filter.
    - intros [a b]. rewrite in_map_iff, filter_In. unfold up, tw. cbn [fst snd]. split.
      + intros ([x y] & E & I). unfold swap in E. cbn in E. injection E as -> ->. apply filter_In in I as [I C]. cbn [fst snd] in C. pose proof (Hne _ _ I).
        apply andb_prop in C as [C1 C2]. apply mem_side_spec in C2. unfold swap in *. cbn [fst snd] in *. split; [auto|]. apply mem_side_spec in I. rewrite I. lia.
      + intros [I C]. pose proof (Hne _ _ I). apply andb_prop in C as [C1 C2]. apply mem_side_spec in C2. exists (b, a). split; [reflexivity|].
        apply filter_In. split; [auto|]. apply mem_side_spec in I. unfold swap. cbn [fst snd]. rewrite I. lia. }
  pose proof (Hsplit (fun _ => true) up) as E1. pose proof (Hsplit up tw) as E2. pose proof (Hsplit (fun s => negb (up s)) tw) as E3.
  pose proof (Hsplit (fun s => negb (tw s)) up) as E4. cbn [andb] in E1.
  assert (filter (fun _ => true) S = S) as Et by (clear; induction S as [|s l IH]; [reflexivity|]; cbn; now rewrite IH). rewrite Et in E1.
  assert (outline simp = filter (fun s => negb (tw s)) S) as Eo by reflexivity. rewrite <- Eo in E4.
  assert (filter (fun s => negb (tw s) && up s) S = filter (fun s => up s && negb (tw s)) S) as F1 by (apply filter_ext; intros s; apply andb_comm).
  assert (filter (fun s => negb (tw s) && negb (up s)) S = filter (fun s => negb (up s) && negb (tw s)) S) as F2 by (apply filter_ext; intros s; apply andb_comm).
  rewrite F1, F2 in E4. change (filter (fun s => up s) S) with (filter up S) in E1. lia.
Qed.

Lemma tri_sides_length simp : length (tri_sides simp) = 3 * length simp.
Proof. induction simp as [|[[a b] c] l IH]; [reflexivity|]. cbn [tri_sides flat_map]. fold (tri_sides l). rewrite app_length, IH. cbn [length]. lia. Qed.

Lemma triangulation_region n simp : triangulation n simp -> region (delaunay n simp).
Proof.
  intros [H1 H2 H3 H4 H5].
  assert (forall a b c, In (a, b, c) simp -> a <> b /\ b <> c /\ a <> c) as Hd by (intros a b c I; apply H2 in I; tauto).
  assert (forall a b, In (a, b) (tri_sides simp) -> a <> b /\ a < n /\ b < n) as Hs.
  { intros a b I. unfold tri_sides in I. apply in_flat_map in I as ([[x y] z] & I & C). pose proof (H2 _ _ _ I) as D. cbn in C.
    destruct C as [C|[C|[C|[]]]]; injection C as <- <-; intuition. }
  assert (forall a b, In (a, b) (tri_sides simp) -> In (a, b) (create_links simp) \/ In (b, a) (create_links simp)) as Hl.
  { intros a b I. pose proof (Hs _ _ I). rewrite !links_sides by auto. destruct (lt_dec a b); [left|right]; (split; [lia|auto]). }
  split; rewrite ?tri_all; cbn [delaunay g_links g_npoints g_cycles]; auto.
  - apply sorted_NoDup, create_links_sorted.
  - intros a b I. apply links_sides in I as (L & [I|I]); [| |auto]; apply Hs in I; lia.
  - intros v B. specialize (H4 v B). clear B. induction H4 as [|v v' R IH E]; [constructor|]. apply reach_step with v; [auto|].
    destruct E as [E|E]; apply Hl in E; tauto.
  - intros E. apply map_eq_nil in E. contradiction.
  - intros c c' I J. apply in_map_iff in I as ([[a b] d] & <- & I), J as ([[a' b'] d'] & <- & J). reflexivity.
  - intros c I. apply in_map_iff in I as ([[a b] d] & <- & I). cbn. lia.
  - intros a b I. apply links_sides in I; [|auto]. tauto.
  - intros c I. apply in_map_iff in I as ([[a b] d] & <- & I). now apply H5.
Qed.

(** The triangulation serves the solver if and only if it has no holes. *)
Theorem C61_triangulation n simp : triangulation n simp -> (planar (delaunay n simp) <-> no_holes n simp).
Proof.
  intros H. rewrite (C61_euler _ (triangulation_region n simp H)). unfold euler, no_holes. cbn [delaunay g_links g_npoints g_cycles]. rewrite map_length.
  assert (forall a b c, In (a, b, c) simp -> a <> b /\ b <> c /\ a <> c) as Hd by (intros a b c I; apply (tr_corners _ _ H) in I; tauto).
  pose proof (links_count simp Hd (tr_once _ _ H)) as K. rewrite tri_sides_length in K. lia.
Qed.

(** The contract on the triangulator that the theorems on unwrapping ask for. *)
Corollary C61_triangulator (triangles : list (Z * Z) -> res (list (nat * nat * nat))) :
  (forall pts tri, triangles pts = Ok tri -> triangulation (length pts) tri /\ no_holes (length pts) tri) ->
  forall pts tri, triangles pts = Ok tri -> planar (delaunay (length pts) tri).
Proof. intros H pts tri E. destruct (H pts tri E) as [T N]. now apply C61_triangulation. Qed.

(** * Cases *)

(** A square with its centre. *)
Definition eu_square : list (nat * nat * nat) := [(0, 1, 4); (1, 2, 4); (2, 3, 4); (3, 0, 4)].
(** A ring of six triangles round a hole. *)
Definition eu_ring : list (nat * nat * nat) := [(0, 1, 3); (1, 4, 3); (1, 2, 4); (2, 5, 4); (2, 0, 5); (0, 3, 5)].

Ltac side_nodup := apply (NoDup_count_occ' (fun a b : nat * nat => ltac:(repeat decide equality))); let x := fresh in let I := fresh in
  intros x I; cbn in I; repeat (destruct I as [<-|I]; [vm_compute; reflexivity|]); destruct I.
Ltac out1 x y := eapply (outer_side _ _ x y); [cbn; tauto|cbn; tauto|intros K; cbn in K; repeat (destruct K as [K|K]; [discriminate|]); destruct K].

Example C61_square : triangulation 5 eu_square /\ no_holes 5 eu_square /\ length (outline eu_square) = 4.
Proof.
  split; [|split; reflexivity]. split.
  - discriminate.
  - intros a b c I. cbn in I. repeat (destruct I as [I|I]; [injection I as <- <- <-; lia|]). destruct I.
  - side_nodup.
  - intros v B. destruct v as [|[|[|[|[|v]]]]]; [constructor| | | | |lia].
    + apply reach_step with 0; [constructor|cbn; tauto].
    + apply reach_step with 1; [apply reach_step with 0; [constructor|cbn; tauto]|cbn; tauto].
    + apply reach_step with 0; [constructor|cbn; tauto].
    + apply reach_step with 0; [constructor|cbn; tauto].
  - intros a b c I. cbn in I. repeat (destruct I as [I|I]; [injection I as <- <- <-|]); [out1 0 1|out1 1 2|out1 2 3|out1 3 0|destruct I].
Qed.

(** The ring meets every other clause and does not serve the solver: a field
    without curl round any triangle can have curl round the hole. *)
Example C61_ring : triangulation 6 eu_ring /\ ~ no_holes 6 eu_ring /\ ~ planar (delaunay 6 eu_ring).
Proof.
  assert (triangulation 6 eu_ring) as T.
  { split.
    - discriminate.
    - intros a b c I. cbn in I. repeat (destruct I as [I|I]; [injection I as <- <- <-; lia|]). destruct I.
    - side_nodup.
    - intros v B. destruct v as [|[|[|[|[|[|v]]]]]]; [constructor| | | | | |lia].
      + apply reach_step with 0; [constructor|cbn; tauto].
      + apply reach_step with 0; [constructor|cbn; tauto].
      + apply reach_step with 0; [constructor|cbn; tauto].
      + apply reach_step with 1; [apply reach_step with 0; [constructor|cbn; tauto]|cbn; tauto].
      + apply reach_step with 0; [constructor|cbn; tauto].
    - intros a b c I. cbn in I. repeat (destruct I as [I|I]; [injection I as <- <- <-|]); [out1 0 1|out1 4 3|out1 1 2|out1 5 4|out1 2 0|out1 3 5|destruct I]. }
  split; [auto|]. assert (~ no_holes 6 eu_ring) as N by (vm_compute; lia). split; [auto|]. intros P. apply N. now apply C61_triangulation.
Qed.

Print Assumptions C61_euler.
Print Assumptions C61_triangulation.
Print Assumptions C61_triangulator.
