(** Vocabulary for stating graph properties. Nothing here refers to how the
    code builds its graphs. *)
From Verif Require Import Base GraphModel.

(** The directed sides of a cycle: consecutive vertices, and last to first. *)
Definition sides (c : list nat) : list (nat * nat) :=
  match c with [] => [] | a :: t => combine c (t ++ [a]) end.

(** All directed sides of all listed cycles, with multiplicity. *)
Definition all_sides (g : graph) : list (nat * nat) := flat_map sides (g_cycles g).

(** [v] can be reached from [u] walking along links in either direction. *)
Inductive reach (links : list (nat * nat)) (u : nat) : nat -> Prop :=
  | reach_refl : reach links u u
  | reach_step v v' : reach links u v -> In (v, v') links \/ In (v', v) links ->
      reach links u v'.

(** A link value [f a b] (for links a < b) read along the direction a -> b. *)
Definition alongQ (f : nat -> nat -> Q) (a b : nat) : Q :=
  if a <? b then f a b else (- f b a)%Q.
Definition alongZ (f : nat -> nat -> Z) (a b : nat) : Z :=
  if a <? b then f a b else (- f b a)%Z.

(** Sum of link values around a cycle. *)
Definition circQ (f : nat -> nat -> Q) (c : list nat) : Q :=
  sumQ (map (fun s => alongQ f (fst s) (snd s)) (sides c)).
Definition circZ (f : nat -> nat -> Z) (c : list nat) : Z :=
  sumZ (map (fun s => alongZ f (fst s) (snd s)) (sides c)).

(** Link values that are differences of a point potential. *)
Definition potentialQ (g : graph) (f : nat -> nat -> Q) (phi : nat -> Q) : Prop :=
  forall a b, In (a, b) (g_links g) -> (f a b == phi b - phi a)%Q.

(** The planar-graph contract documented in graph/_interface.py:56-68, plus
    completeness of the listed cycles ([pl_span]): a field without curl around
    any listed cycle comes from a potential. *)
Record planar (g : graph) : Prop := {
  pl_nodup : NoDup (g_links g);
  pl_lt : forall a b, In (a, b) (g_links g) -> a < b < g_npoints g;
  pl_conn : forall v, v < g_npoints g -> reach (g_links g) 0 v;
  pl_cycles : g_cycles g <> [];
  pl_len : forall c c', In c (g_cycles g) -> In c' (g_cycles g) -> length c = length c';
  pl_poly : forall c, In c (g_cycles g) -> 3 <= length c;
  pl_side : forall a b, In (a, b) (all_sides g) ->
      In (a, b) (g_links g) \/ In (b, a) (g_links g);
  (* no link is traversed twice in the same direction *)
  pl_once : NoDup (all_sides g);
  (* and each is traversed at least once *)
  pl_used : forall a b, In (a, b) (g_links g) ->
      In (a, b) (all_sides g) \/ In (b, a) (all_sides g);
  pl_span : forall f : nat -> nat -> Q,
      (forall c, In c (g_cycles g) -> circQ f c == 0)%Q ->
      exists phi, potentialQ g f phi
}.

(** A list of links strictly increasing in lexicographic order. *)
Definition lex_lt (p q : nat * nat) : Prop :=
  fst p < fst q \/ (fst p = fst q /\ snd p < snd q).

(** The links that bound the graph: traversed in only one direction. *)
Definition on_boundary (g : graph) (a b : nat) : Prop :=
  In (a, b) (g_links g) /\ ~ (In (a, b) (all_sides g) /\ In (b, a) (all_sides g)).

(** An unordered pair listed in either orientation. *)
Definition listed (l : list (nat * nat)) (a b : nat) : Prop := In (a, b) l \/ In (b, a) l.

(** Number of links touching a node. *)
Definition degree (links : list (nat * nat)) (v : nat) : nat :=
  length (filter (fun l => (fst l =? v) || (snd l =? v)) links).
