(** The shape of a region cut into cycles, without any sum round a cycle. *)
From Verif Require Import Base GraphModel GraphSpec.
From Coq Require Import List.
Import ListNotations.

(** Walking from cycle to cycle across common sides one gets to a side that only
    one cycle has. *)
Inductive outer (cs : list (list nat)) : list nat -> Prop :=
  | outer_side c a b : In c cs -> In (a, b) (sides c) -> ~ In (b, a) (flat_map sides cs) -> outer cs c
  | outer_step c c' a b : In c cs -> In (a, b) (sides c) -> In (b, a) (sides c') -> outer cs c' -> outer cs c.

(** A connected region without holes: every clause can be checked by counting. *)
Record region (g : graph) : Prop := {
  rg_nodup : NoDup (g_links g);
  rg_lt : forall a b, In (a, b) (g_links g) -> a < b < g_npoints g;
  rg_conn : forall v, v < g_npoints g -> reach (g_links g) 0 v;
  rg_cycles : g_cycles g <> [];
  rg_len : forall c c', In c (g_cycles g) -> In c' (g_cycles g) -> length c = length c';
  rg_poly : forall c, In c (g_cycles g) -> 3 <= length c;
  rg_side : forall a b, In (a, b) (all_sides g) -> In (a, b) (g_links g) \/ In (b, a) (g_links g);
  rg_once : NoDup (all_sides g);
  rg_used : forall a b, In (a, b) (g_links g) -> In (a, b) (all_sides g) \/ In (b, a) (all_sides g);
  rg_outer : forall c, In c (g_cycles g) -> outer (g_cycles g) c
}.

(** Euler's formula, the outer face not counted. *)
Definition euler (g : graph) : Prop := g_npoints g + length (g_cycles g) = length (g_links g) + 1.

(** The directed sides of a list of triangles, and those on the outline: no other
    triangle has them the other way round. *)
Definition tri_sides (simplices : list (nat * nat * nat)) : list (nat * nat) :=
  flat_map (fun s => let '(a, b, c) := s in [(a, b); (b, c); (c, a)]) simplices.
Definition mem_side (s : nat * nat) (l : list (nat * nat)) : bool :=
  existsb (fun t => (fst s =? fst t) && (snd s =? snd t)) l.
Definition outline (simplices : list (nat * nat * nat)) : list (nat * nat) :=
  filter (fun s => negb (mem_side (snd s, fst s) (tri_sides simplices))) (tri_sides simplices).

(** What scipy's Delaunay gives for distinct points: triangles with three
    different corners, all turning the same way, that hang together, use every
    point and do not close up like a sphere. *)
Record triangulation (n : nat) (simplices : list (nat * nat * nat)) : Prop := {
  tr_some : simplices <> [];
  tr_corners : forall a b c, In (a, b, c) simplices -> a < n /\ b < n /\ c < n /\ a <> b /\ b <> c /\ a <> c;
  tr_once : NoDup (tri_sides simplices);
  tr_conn : forall v, v < n -> reach (tri_sides simplices) 0 v;
  tr_outer : forall a b c, In (a, b, c) simplices -> outer (map tri_cycle simplices) [a; b; c]
}.
(** The number of triangles of n points, h of which are on the outline. *)
Definition no_holes (n : nat) (simplices : list (nat * nat * nat)) : Prop :=
  length simplices + length (outline simplices) + 2 = 2 * n.
