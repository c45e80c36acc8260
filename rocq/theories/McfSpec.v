(** Vocabulary for the minimum-cost-flow unwrapping properties. *)
From Verif Require Import Base GraphModel GraphSpec McfModel.

(** Value attached to link (a, b), given one value per link in link order. *)
Fixpoint link_val {A} (d : A) (links : list (nat * nat)) (vals : list A) (a b : nat) : A :=
  match links, vals with
  | (x, y) :: ls, v :: vs => if (x =? a) && (y =? b) then v else link_val d ls vs a b
  | _, _ => d
  end.

(** The uses of link (a, b) by the cycles, in order: 1-based cycle number and
    +1 when the cycle walks a -> b, -1 when it walks b -> a. *)
Definition side_use (k a b : nat) (s : nat * nat) : list (nat * Z) :=
  if (fst s =? a) && (snd s =? b) then [(k, 1%Z)]
  else if (fst s =? b) && (snd s =? a) then [(k, (-1)%Z)] else [].
Fixpoint uses_from (k : nat) (cycles : list (list nat)) (a b : nat) : list (nat * Z) :=
  match cycles with
  | [] => []
  | c :: t => flat_map (side_use k a b) (sides c) ++ uses_from (S k) t a b
  end.
Definition uses (g : graph) (a b : nat) : list (nat * Z) := uses_from 1 (g_cycles g) a b.

(** Links are listed low to high, each once. *)
Definition simple_links (g : graph) : Prop :=
  NoDup (g_links g) /\ forall a b, In (a, b) (g_links g) -> a < b.

(** * Network flow problems *)
Definition node_sum (pick : arc -> nat) (arcs : list arc) (f : list Z) (v : nat) : Z :=
  sumZ (map (fun af => if pick (fst af) =? v then snd af else 0%Z) (combine arcs f)).
Definition feasible (arcs : list arc) (supply : list Z) (f : list Z) : Prop :=
  length f = length arcs /\
  (forall i, i < length arcs -> (0 <= nth i f 0 <= a_cap (nth i arcs (Arc 0 0 0 0)))%Z) /\
  (forall v, v < length supply ->
     (node_sum a_from arcs f v - node_sum a_to arcs f v = nth v supply 0)%Z).
Definition flow_cost (arcs : list arc) (f : list Z) : Z :=
  sumZ (map (fun af => a_cost (fst af) * snd af)%Z (combine arcs f)).
Definition optimal (arcs : list arc) (supply f : list Z) : Prop :=
  feasible arcs supply f /\
  forall f', feasible arcs supply f' -> (flow_cost arcs f <= flow_cost arcs f')%Z.

(** What is assumed of the external solver. *)
Definition smcf_sound (smcf : list arc -> list Z -> option (list Z)) : Prop :=
  forall arcs supply f, smcf arcs supply = Some f -> optimal arcs supply f.
Definition smcf_complete (smcf : list arc -> list Z -> option (list Z)) : Prop :=
  forall arcs supply, (exists f, feasible arcs supply f) -> smcf arcs supply <> None.

(** * Corrections *)
(** One integer per link; cycle number c (0-based) has residue [c + 1]. *)
Definition cancels (g : graph) (residues k : list Z) : Prop :=
  length k = length (g_links g) /\
  forall c, c < length (g_cycles g) ->
    (circZ (link_val 0%Z (g_links g) k) (nth c (g_cycles g) []) = - nth (c + 1) residues 0)%Z.

(** Cost charged for adding k_i cycles to link i. *)
Definition price (cost revcost k : list Z) : Z :=
  sumZ (map (fun t => let '(c, (r, x)) := t in c * Z.max x 0 + r * Z.max (- x) 0)%Z
    (combine cost (combine revcost k))).

Definition fits_int32 (k : list Z) : Prop :=
  forall x, In x k -> (- int32_max <= x <= int32_max)%Z.

(** Half a cycle. *)
Definition half : Q := (twopi * (1 # 2))%Q.

(** The difference is exactly half-way between two representatives. *)
Definition tie (p0 p1 m : Q) : Prop := exists j : Z, (p1 - p0 - m == twopi * (inject_Z j + (1 # 2)))%Q.

(** In a planar graph a link has one use, or two in opposite directions. *)
Inductive planar_uses : list (nat * Z) -> Prop :=
  | pu1 c d : d = 1%Z \/ d = (-1)%Z -> 1 <= c -> planar_uses [(c, d)]
  | pu2 c c' d : d = 1%Z \/ d = (-1)%Z -> 1 <= c -> 1 <= c' ->
      planar_uses [(c, d); (c', (- d)%Z)].

(** revcost defaults to cost. *)
Definition rev_or (cost : list Z) (revcost : option (list Z)) : list Z :=
  match revcost with None => cost | Some rc => rc end.

(** What a returned result satisfies. *)
Definition unwraps (g : graph) (p u : list Q) (k : list Z) : Prop :=
  length u = g_npoints g /\ (nth 0 u 0 == nth 0 p 0)%Q /\
  (forall v, (v < g_npoints g)%nat -> cong2pi (nth v u 0%Q) (nth v p 0%Q)) /\
  (forall a b, In (a, b) (g_links g) ->
     (nth b u 0 - nth a u 0 == phase_diff (nth a p 0) (nth b p 0) 0
       + twopi * inject_Z (link_val 0%Z (g_links g) k a b))%Q).

(** Link values that are point differences up to whole cycles [m]. *)
Definition congruent_links (g : graph) (gr : list Q) (x : nat -> Q) (m : nat -> nat -> Z) : Prop :=
  forall a b, In (a, b) (g_links g) -> (link_val 0 (g_links g) gr a b == x b - x a + twopi * inject_Z (m a b))%Q.
