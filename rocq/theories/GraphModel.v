(** Model of spurt.graph: Hop3Graph, Reg2DGraph, the links of DelaunayGraph,
    order_points and graph_laplacian. *)
From Verif Require Import Base.

(** graph/_interface.py:16-85 (GraphInterface / PlanarGraphInterface): the data
    an instance exposes and the solvers read. Point coordinates are kept
    separately ([hop3_points], [reg2d_points]). Indices are unbounded. *)
Record graph := Graph {
  g_npoints : nat;
  g_links : list (nat * nat);
  g_cycles : list (list nat)
}.

(** graph/utils.py:14-33 order_points. *)
Definition order_points (p : nat * nat) : nat * nat :=
  if fst p <=? snd p then (fst p, snd p) else (snd p, fst p).

(** Python's tuple order [<] on pairs of ints. *)
Definition pair_ltb (p q : nat * nat) : bool :=
  (fst p <? fst q) || ((fst p =? fst q) && (snd p <? snd q)).

(** The Python set [arcs] of graph/_hop3.py:57 and graph/_delaunay.py:50 is only
    ever read through [sorted(arcs)]; it is kept as the sorted list of its
    elements, and this is [arcs.add(p)]. *)
Fixpoint set_add (p : nat * nat) (arcs : list (nat * nat)) : list (nat * nat) :=
  match arcs with
  | [] => [p]
  | q :: t =>
      if pair_ltb p q then p :: q :: t
      else if pair_ltb q p then q :: set_add p t
      else q :: t
  end.

(** graph/_delaunay.py:49-55 DelaunayGraph._create_links and, with the same
    body, graph/_hop3.py:76-80. The triangles (scipy's [simplices], an
    (n, 3) array) are a parameter. *)
Definition create_links (simplices : list (nat * nat * nat)) : list (nat * nat) :=
  fold_left (fun arcs s =>
    let '(s0, s1, s2) := s in
    let arcs := set_add (order_points (s0, s1)) arcs in
    let arcs := set_add (order_points (s0, s2)) arcs in
    set_add (order_points (s1, s2)) arcs) simplices [].

Definition tri_cycle (s : nat * nat * nat) : list nat :=
  let '(a, b, c) := s in [a; b; c].

(** graph/_delaunay.py:18-59 DelaunayGraph, given the number of points and the
    triangles scipy returns. *)
Definition delaunay (npoints : nat) (simplices : list (nat * nat * nat)) : graph :=
  Graph npoints (create_links simplices) (map tri_cycle simplices).

(** graph/_hop3.py:56-73 the [_cycles] array: allocation with zeros, then the
    assignments in program order. [n] is [npoints] (>= 4, checked by caller). *)
Definition hop3_cycles (n : nat) : list (nat * nat * nat) :=
  let ncycles := 3 + (n - 4) * 2 in
  let c := repeat (0, 0, 0) ncycles in
  let c := upd c 0 (0, 1, 2) in
  let c := upd c 1 (0, 2, 3) in
  let c := fold_left (fun c ii =>
      let c := upd c (2 * ii) (ii, ii + 2, ii + 3) in
      upd c (2 * ii + 1) (ii, ii + 3, ii + 1)) (seq 1 (n - 3 - 1)) c in
  upd c (ncycles - 1) (n - 3, n - 1, n - 2).

(** graph/_hop3.py:23-38 and 56-81: constructor, including the size check and
    the assertion on the number of links. *)
Definition hop3 (npoints : Z) : res graph :=
  if (npoints <? 4)%Z then Err ValueError
  else
    let n := Z.to_nat npoints in
    let cyc := hop3_cycles n in
    let links := create_links cyc in
    if length links =? 3 * n - 6 then Ok (Graph n links (map tri_cycle cyc))
    else Err AssertionError.

(** graph/_hop3.py:31-33 [points]: (index, 0). *)
Definition hop3_points (n : nat) : list (nat * nat) := map (fun i => (i, 0)) (seq 0 n).

(** graph/_hop3.py:53-54 [boundary]. *)
Definition hop3_boundary : list (nat * nat) := [(0, 1); (1, 3); (3, 0)].

(** An [np.zeros((size, ..))] array filled by consecutive writes at indices
    0, 1, 2, ... [size] is a Python int: a negative one makes np.zeros raise
    ValueError; a write beyond the end raises [e]; unwritten rows stay zero. *)
Definition fill {A} (size : Z) (z : A) (e : exn) (rows : list A) : res (list A) :=
  if (size <? 0)%Z then Err ValueError
  else if (Z.of_nat (length rows) <=? size)%Z
  then Ok (rows ++ repeat z (Z.to_nat size - length rows))
  else Err e.

(** graph/_delaunay.py:149-161 the rows written by _create_links, in order. *)
Definition reg2d_link_rows (h w : nat) : list (nat * nat) :=
  flat_map (fun ii => map (fun jj => (ii * w + jj, ii * w + jj + 1)) (seq 0 (w - 1))) (seq 0 h)
  ++ flat_map (fun ii => map (fun jj => (ii * w + jj, ii * w + jj + w)) (seq 0 w)) (seq 0 (h - 1)).

(** graph/_delaunay.py:143-163 Reg2DGraph._create_links. *)
Definition reg2d_links (h w : nat) : res (list (nat * nat)) :=
  let narcs := (2 * (Z.of_nat h * Z.of_nat w) - Z.of_nat h - Z.of_nat w)%Z in
  fill narcs (0, 0) ValueError (reg2d_link_rows h w).

(** graph/_delaunay.py:99-106 the rows written by _create_cycles;
    ravel_multi_index((i, j), (h, w)) = i * w + j. *)
Definition reg2d_cycle_rows (h w : nat) : list (list nat) :=
  flat_map (fun ii => map (fun jj =>
    [ii * w + jj; (ii + 1) * w + jj; (ii + 1) * w + (jj + 1); ii * w + (jj + 1)])
    (seq 0 (w - 1))) (seq 0 (h - 1)).

(** graph/_delaunay.py:92-108 Reg2DGraph._create_cycles. *)
Definition reg2d_cycles (h w : nat) : res (list (list nat)) :=
  let ncyc := (Z.of_nat h * Z.of_nat w - Z.of_nat h - Z.of_nat w + 1)%Z in
  fill ncyc [0; 0; 0; 0] IndexError (reg2d_cycle_rows h w).

(** graph/_delaunay.py:70-76 Reg2DGraph.__init__ (non-negative shape). *)
Definition reg2d (h w : nat) : res graph :=
  do links <- reg2d_links h w;
  do cyc <- reg2d_cycles h w;
  Ok (Graph (h * w) links cyc).

(** graph/_delaunay.py:82-90 [points]: row-major pixels as (column, row). *)
Definition reg2d_points (h w : nat) : list (nat * nat) :=
  flat_map (fun i => map (fun j => (j, i)) (seq 0 w)) (seq 0 h).

(** graph/_delaunay.py:110-141 [boundary]; the two backward ranges
    [range(n - 1, 0, -1)] are [rev (seq 1 (n - 1))]. *)
Definition reg2d_boundary (h w : nat) : res (list (nat * nat)) :=
  let narcs := (2 * (Z.of_nat h + Z.of_nat w - 2))%Z in
  let rows :=
    map (fun ii => (ii, ii + 1)) (seq 0 (w - 1))
    ++ map (fun ii => let off := ii * w + w - 1 in (off, off + w)) (seq 0 (h - 1))
    ++ map (fun ii => let off := (h - 1) * w in (off + ii - 1, off + ii)) (rev (seq 1 (w - 1)))
    ++ map (fun ii => let off := ii * w in (off - w, off)) (rev (seq 1 (h - 1))) in
  do arcs <- fill narcs (0, 0) IndexError rows;
  if (Z.of_nat (length rows) =? narcs)%Z then Ok arcs else Err AssertionError.

(** graph/utils.py:36-50 graph_laplacian. [data], [row_indices], [col_indices]
    as built by the code; csr_matrix sums duplicate coordinates and infers its
    shape from the largest indices (ValueError when there are none). The result
    is the dense list of rows of the sparse product. *)
Definition lap_data (links : list (nat * nat)) : list Z :=
  flat_map (fun _ => [(-1)%Z; 1%Z]) links.
Definition lap_rows (links : list (nat * nat)) : list nat :=
  map (fun k => k / 2) (seq 0 (2 * length links)).
Definition lap_cols (links : list (nat * nat)) : list nat :=
  flat_map (fun l => [fst l; snd l]) links.

Definition coo_entry (data : list Z) (rows cols : list nat) (r c : nat) : Z :=
  sumZ (map (fun t => let '(d, (i, j)) := t in
    if (i =? r) && (j =? c) then d else 0%Z) (combine data (combine rows cols))).

Definition graph_laplacian (links : list (nat * nat)) : res (list (list Z)) :=
  match links with
  | [] => Err ValueError
  | _ =>
      let a := coo_entry (lap_data links) (lap_rows links) (lap_cols links) in
      let ncol := S (list_max (lap_cols links)) in
      let nrow := length links in
      Ok (map (fun i => map (fun j =>
            sumZ (map (fun r => a r i * a r j)%Z (seq 0 nrow))) (seq 0 ncol)) (seq 0 ncol))
  end.
