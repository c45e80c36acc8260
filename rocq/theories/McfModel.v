(** Model of spurt.mcf: phase_diff, sign_nonzero, flood_fill (mcf/utils.py) and
    ORMCFSolver / solve_mcf (mcf/_ortools.py).

    Phase data: the code accepts complex samples (then it only uses
    [np.angle] of each) or real phases in radians (used as they are). The model
    takes the list of these phases; for complex data it is the list of angles.
    Arithmetic on phases is exact rational arithmetic (no float rounding). *)
From Verif Require Import Base GraphModel.

(** mcf/utils.py:6-28 phase_diff, on phases. *)
Definition phase_diff (p0 p1 model : Q) : Q :=
  (let d := p1 - p0 - model in
   model + d - inject_Z (rint (d / twopi)) * twopi)%Q.

(** mcf/utils.py:31-38 sign_nonzero (integer argument). *)
Definition sign_nonzero (x : Z) : Z := if (0 <? x)%Z then 1%Z else (-1)%Z.

(** * Dual graph: mcf/_ortools.py:73-116 _prepare_dual *)

Definition pair_eqb (p q : nat * nat) : bool := (fst p =? fst q) && (snd p =? snd q).

(** The dict [edge_to_cycles]: insertion-ordered association list. *)
Definition edge_dict := list ((nat * nat) * list (nat * Z)).

(** mcf/_ortools.py:86 dict comprehension over the links: a repeated key keeps
    its first position. *)
Definition dict_init (links : list (nat * nat)) : edge_dict :=
  fold_left (fun d k => if existsb (fun kv => pair_eqb (fst kv) k) d then d else d ++ [(k, [])])
    links [].

(** mcf/_ortools.py:95 [edge_to_cycles[edge].append(x)]; KeyError if absent. *)
Fixpoint dict_append (d : edge_dict) (k : nat * nat) (x : nat * Z) : res edge_dict :=
  match d with
  | [] => Err KeyError
  | (k', v) :: t =>
      if pair_eqb k' k then Ok ((k', v ++ [x]) :: t)
      else do t' <- dict_append t k x; Ok ((k', v) :: t')
  end.

(** The consecutive vertex pairs visited by the loops
    [for ii in range(n): jj = (ii + 1) % n] (mcf/_ortools.py:88-91, 140-142). *)
Definition steps (c : list nat) (n : nat) : list (nat * nat) :=
  map (fun ii => (nth ii c 0, nth ((ii + 1) mod n) c 0)) (seq 0 n).

(** mcf/_ortools.py:87-97 the double loop over cycles and their sides. *)
Fixpoint dual_side_loop (icyc : nat) (sd : list (nat * nat)) (d : edge_dict) : res edge_dict :=
  match sd with
  | [] => Ok d
  | (x, y) :: t =>
      do d' <- dict_append d (order_points (x, y))
                 (icyc + 1, sign_nonzero (Z.of_nat y - Z.of_nat x));
      dual_side_loop icyc t d'
  end.
Fixpoint dual_cycle_loop (icyc : nat) (cycles : list (list nat)) (d : edge_dict) : res edge_dict :=
  match cycles with
  | [] => Ok d
  | c :: t =>
      do d' <- dual_side_loop icyc (steps c (length c)) d;
      dual_cycle_loop (S icyc) t d'
  end.

(** mcf/_ortools.py:105-116 one row of dual_edges and dual_edge_dir. *)
Definition dual_row (vv : list (nat * Z)) : res ((nat * nat) * (Z * Z)) :=
  match vv with
  | [(c0, d0); (c1, d1)] => Ok ((c0, c1), (d0, d1))
  | [(c0, d0)] => Ok ((c0, 0), (d0, 0%Z))
  | _ => Err ValueError
  end.

Fixpoint dual_rows (d : edge_dict) : res (list ((nat * nat) * (Z * Z))) :=
  match d with
  | [] => Ok []
  | (_, vv) :: t => do r <- dual_row vv; do rs <- dual_rows t; Ok (r :: rs)
  end.

(** mcf/_ortools.py:25-43 and 73-116: the solver object: dual_edges and
    dual_edge_dir have one row per link; rows beyond the dict (repeated links)
    stay zero. int32 / int8 storage is not modelled. *)
Record solver := Solver {
  s_graph : graph;
  s_dual : list (nat * nat);      (* dual_edges *)
  s_dir : list (Z * Z)            (* dual_edge_dir *)
}.

Definition make_solver (g : graph) : res solver :=
  do d <- dual_cycle_loop 0 (g_cycles g) (dict_init (g_links g));
  do rows <- dual_rows d;
  let pad := length (g_links g) - length rows in
  Ok (Solver g (map fst rows ++ repeat (0, 0) pad) (map snd rows ++ repeat (0%Z, 0%Z) pad)).

(** * Residues *)

(** mcf/_ortools.py:69-71 cycle_length: [len(self.cycles[0])]. *)
Definition cycle_length (g : graph) : res nat :=
  match g_cycles g with [] => Err IndexError | c :: _ => Ok (length c) end.

(** mcf/_ortools.py:146-147 (and 171-173): round the sums to cycles, entry 0
    (grounding node) is minus the sum of the others. [sums] are the entries
    1..ncycles before rounding. *)
Definition round_residues (sums : list Q) : list Z :=
  let r := map (fun x => rint (x / twopi)%Q) sums in (- sumZ r)%Z :: r.

(** mcf/_ortools.py:126-148 compute_residues. An out-of-range cycle entry makes
    the numpy indexing raise IndexError. *)
Definition compute_residues (s : solver) (p : list Q) : res (list Z) :=
  let g := s_graph s in
  if negb (length p =? g_npoints g) then Err ValueError
  else
    do ndim <- cycle_length g;
    if existsb (existsb (fun v => g_npoints g <=? v)) (g_cycles g) then Err IndexError
    else Ok (round_residues (map (fun c =>
      sumQ (map (fun e => phase_diff (nth (fst e) p 0%Q) (nth (snd e) p 0%Q) 0%Q) (steps c ndim)))
      (g_cycles g))).

(** [np.add.at(acc, idx, vals)]. *)
Definition add_at (acc : list Q) (idx : list nat) (vals : list Q) : list Q :=
  fold_left (fun acc iv => upd acc (fst iv) (nth (fst iv) acc 0 + snd iv)%Q) (combine idx vals) acc.

(** mcf/_ortools.py:150-175 compute_residues_from_gradients (the float32
    accumulator is exact here). *)
Definition compute_residues_from_gradients (s : solver) (gr : list Q) : res (list Z) :=
  let g := s_graph s in
  if negb (length gr =? length (g_links g)) then Err ValueError
  else
    let acc := repeat 0%Q (length (g_cycles g) + 1) in
    let acc := add_at acc (map fst (s_dual s))
                 (map (fun dg => inject_Z (fst dg) * snd dg)%Q (combine (map fst (s_dir s)) gr)) in
    let acc := add_at acc (map snd (s_dual s))
                 (map (fun dg => inject_Z (fst dg) * snd dg)%Q (combine (map snd (s_dir s)) gr)) in
    Ok (round_residues (tl acc)).

(** * Minimum cost flow *)

Record arc := Arc { a_from : nat; a_to : nat; a_cap : Z; a_cost : Z }.

Definition int32_max : Z := 2147483647.

(** [x * (d == v)] on integer arrays. *)
Definition sel (x d v : Z) : Z := if (d =? v)%Z then x else 0%Z.

Section WithSmcf.
(** ortools SimpleMinCostFlow (mcf/_ortools.py:331-350): arcs in insertion
    order and the node supplies; [Some flows] (one per arc) when the status is
    OPTIMAL, [None] for every other status. *)
Variable smcf : list arc -> list Z -> option (list Z).

(** mcf/_ortools.py:333-343 the arcs handed to the solver. *)
Definition mcf_arcs (dual : list (nat * nat)) (dir0 : list Z) (cost revcost : list Z) : list arc :=
  map (fun t => let '((u, v), (d, (c, rc))) := t in
         Arc u v int32_max (sel c d (-1) + sel rc d 1))
      (combine dual (combine dir0 (combine cost revcost)))
  ++
  map (fun t => let '((u, v), (d, (c, rc))) := t in
         Arc v u int32_max (sel c d 1 + sel rc d (-1)))
      (combine dual (combine dir0 (combine cost revcost))).

(** mcf/_ortools.py:288-357 solve_mcf. Costs are 1D arrays with one entry per
    link; another length is a numpy shape error (ValueError). Broadcasting of
    scalars is not modelled. *)
Definition solve_mcf (dual : list (nat * nat)) (dir : list (Z * Z)) (residues cost revcost : list Z)
    : res (list Z) :=
  let n := length dual in
  let dir0 := map fst dir in
  if negb (sumZ residues =? 0)%Z then Err ValueError
  else if negb ((length cost =? n) && (length revcost =? n)) then Err ValueError
  else
    match smcf (mcf_arcs dual dir0 cost revcost) residues with
    | None => Err RuntimeError
    | Some f =>
        Ok (map (fun ii => nth ii dir0 0 * (nth (ii + n) f 0 - nth ii f 0))%Z (seq 0 n))
    end.

(** mcf/_ortools.py:198-214 residues_to_flows; [revcost = None] means cost. *)
Definition residues_to_flows (s : solver) (residues cost : list Z) (revcost : option (list Z))
    : res (list Z) :=
  if forallb (fun r => (r =? 0)%Z) residues then Ok (repeat 0%Z (length (g_links (s_graph s))))
  else solve_mcf (s_dual s) (s_dir s) residues cost
         (match revcost with None => cost | Some rc => rc end).

(** * flood_fill: mcf/utils.py:41-186 *)

Inductive mode := Points | Gradients | OtherMode.

(** mcf/utils.py:77 [np.max(links) + 1]; ValueError on an empty array. *)
Definition max_point (links : list (nat * nat)) : res nat :=
  match links with
  | [] => Err ValueError
  | _ => Ok (list_max (flat_map (fun l => [fst l; snd l]) links) + 1)
  end.

(** mcf/utils.py:103-114 gradient plus flow on every link. *)
Definition link_grads (m : mode) (indata : list Q) (links : list (nat * nat)) (flows : list Z)
    : list Q :=
  map (fun ii =>
    let l := nth ii links (0, 0) in
    ((match m with
      | Points => phase_diff (nth (fst l) indata 0) (nth (snd l) indata 0) 0
      | _ => nth ii indata 0
      end) + twopi * inject_Z (nth ii flows 0%Z))%Q) (seq 0 (length links)).

(** mcf/utils.py:100-114 [pts_to_nbrs]: neighbours of [pt] in the order in which
    the loop over the links appends them. *)
Definition nbrs (links : list (nat * nat)) (grads : list Q) (pt : nat) : list (nat * Q) :=
  flat_map (fun lg => let '((a, b), gr) := lg in
      (if a =? pt then [(b, gr)] else []) ++ (if b =? pt then [(a, - gr)%Q] else []))
    (combine links grads).

(** State of the walk: [done], [to_do], [unwrapped], number of closure errors
    (the recorded paths only feed an error message and are not modelled). *)
Record ff := FF { ff_done : list bool; ff_todo : list nat; ff_unw : list Q; ff_err : nat }.

(** mcf/utils.py:145-165 one neighbour. *)
Definition ff_nbr (i : nat) (st : ff) (jg : nat * Q) : ff :=
  let '(j, g) := jg in
  let u := (nth i (ff_unw st) 0 + g)%Q in
  if negb (nth j (ff_done st) false) then
    FF (upd (ff_done st) j true) (ff_todo st ++ [j]) (upd (ff_unw st) j u) (ff_err st)
  else
    let diff := (u - nth j (ff_unw st) 0)%Q in
    if Qle_bool diff (1 # 1000) && Qle_bool (- (1 # 1000)) diff then st
    else FF (ff_done st) (ff_todo st) (ff_unw st) (S (ff_err st)).

(** mcf/utils.py:139-165 the while loop, with fuel. *)
Fixpoint ff_loop (fuel : nat) (adj : nat -> list (nat * Q)) (st : ff) : res ff :=
  match ff_todo st with
  | [] => Ok st
  | i :: rest =>
      match fuel with
      | O => Err OutOfFuel
      | S fuel =>
          ff_loop fuel adj
            (fold_left (ff_nbr i) (adj i) (FF (ff_done st) rest (ff_unw st) (ff_err st)))
      end
  end.

(** mcf/utils.py:41-186 flood_fill. The fuel is the number of points. *)
Definition flood_fill (indata : list Q) (links : list (nat * nat)) (flows : list Z) (m : mode)
    : res (list Q) :=
  if negb (length links =? length flows) then Err ValueError
  else match m with OtherMode => Err ValueError | _ =>
    do npts <- max_point links;
    if negb (length indata =? match m with Gradients => length links | _ => npts end)
    then Err ValueError
    else
      let adj := nbrs links (link_grads m indata links flows) in
      do st <- ff_loop npts adj
                 (FF (upd (repeat false npts) 0 true) [0] (repeat 0%Q npts) 0);
      if 0 <? ff_err st then Err ValueError
      else if negb (forallb (fun b => b) (ff_done st)) then Err ValueError
      else match m with
           | Points => Ok (map (fun x => x + nth 0 indata 0)%Q (ff_unw st))
           | _ => Ok (ff_unw st)
           end
  end.

(** mcf/_ortools.py:177-196 unwrap_one. *)
Definition unwrap_one (s : solver) (wrapdata : list Q) (cost : list Z) (revcost : option (list Z))
    : res (list Q * list Z) :=
  do residues <- compute_residues s wrapdata;
  do flows <- residues_to_flows s residues cost
                (Some (match revcost with None => cost | Some rc => rc end));
  do unw <- flood_fill wrapdata (g_links (s_graph s)) flows Points;
  Ok (unw, flows).

End WithSmcf.
