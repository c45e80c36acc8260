(** Model of ORMCFSolver.residues_to_flows_many (mcf/_ortools.py:216-285),
    get_cpu_count (utils/_cpu.py) and EMCFSolver (workflows/emcf/_solver.py).

    Process pools: the code hands out tasks and stores each result under the
    index that comes back with it. The order in which results come back is a
    parameter [sched : list nat -> list nat] giving the completion order of the
    submitted task indices; theorems quantify over every [sched] that returns a
    permutation of its argument. Chunking only influences that order.

    2D arrays: [grad_space] (interferograms x links) is stored by columns, i.e.
    as a list over links of lists over interferograms. float32 storage is not
    modelled (exact rationals). *)
From Verif Require Import Base GraphModel McfModel.

(** utils/_cpu.py:6-33 get_cpu_count. [quota], [period]: the integers in the two
    cgroup files, [Err] when a file is missing or does not parse;
    [machine]: multiprocessing.cpu_count(). math.ceil of the float quotient is
    modelled as the exact ceiling. *)
Definition get_cpu_count (quota period : res Z) (machine : Z) : Z :=
  match quota, period with
  | Ok q, Ok p =>
      if ((0 <? q) && (0 <? p))%Z then (- ((- q) / p))%Z else machine
  | _, _ => machine
  end.

(** mcf/_ortools.py:230-231 and links/_grid_search.py:96-97, the same lines
    (None or <= 0 means default). *)
Definition time_workers (wc : option Z) (cpu : Z) : Z :=
  match wc with
  | Some w => if (w <=? 0)%Z then Z.max 1 (cpu - 1) else w
  | None => Z.max 1 (cpu - 1)
  end.

(** workflows/emcf/_solver.py:257-259. *)
Definition space_workers (wc cpu : Z) : Z := if (wc <? 1)%Z then (cpu - 1)%Z else wc.

(** Results written under their own index: [out[res[0]] = res[1]]. *)
Definition set_rows {A} (init : list A) (results : list (nat * A)) : list A :=
  fold_left (fun acc ir => upd acc (fst ir) (snd ir)) results init.

Section WithSmcf.
Variable smcf : list arc -> list Z -> option (list Z).

Definition nonzero_row (r : list Z) : bool := existsb (fun x => negb (x =? 0)%Z) r.

(** mcf/_ortools.py:216-285 residues_to_flows_many. *)
Definition residues_to_flows_many (sched : list nat -> list nat) (cpu : Z) (s : solver)
    (residues : list (list Z)) (cost : list Z) (revcost : option (list Z)) (wc : option Z)
    : res (list (list Z)) :=
  let rc := match revcost with None => cost | Some rc => rc end in
  if negb (forallb (fun r => length r =? length (g_cycles (s_graph s)) + 1) residues)
  then Err ValueError
  else
    let init := repeat (repeat 0%Z (length (g_links (s_graph s)))) (length residues) in
    let tasks := filter (fun ii => nonzero_row (nth ii residues [])) (seq 0 (length residues)) in
    if (time_workers wc cpu =? 1)%Z then
      (* lines 250-253 *)
      do rs <- map_res (fun ii => do f <- residues_to_flows smcf s (nth ii residues []) cost (Some rc);
                                  Ok (ii, f)) tasks;
      Ok (set_rows init rs)
    else
      (* lines 258-283; wrap_solve_mcf, 360-369 *)
      do rs <- map_res (fun ii => do f <- solve_mcf smcf (s_dual s) (s_dir s) (nth ii residues []) cost rc;
                                  Ok (ii, f)) (sched tasks);
      Ok (set_rows init rs).

(** * EMCFSolver *)

Inductive cost_type := Constant | Distance | Centroid | OtherCost.

(** _solver.py:141-158 and 231-248: [dist], [cent] are what distance_costs and
    centroid_costs return for this graph (see CostModel.v). *)
Definition pick_cost (ct : cost_type) (n : nat) (dist cent : list Z) : res (list Z) :=
  match ct with
  | Constant => Ok (repeat 1%Z n)
  | Distance => Ok dist
  | Centroid => Ok cent
  | OtherCost => Err ValueError
  end.

(** Element [wrap_data[row, col]]. *)
Definition at2 (data : list (list Q)) (r c : nat) : Q := nth c (nth r data []) 0%Q.

(** _solver.py:303-319 (SLC input) and 186-189 (interferogram input): the wrapped
    spatial gradient of every interferogram on the spatial link (a, b). *)
Definition link_column (input_is_ifg : bool) (ifgs : list (nat * nat)) (data : list (list Q))
    (ab : nat * nat) : list Q :=
  let '(a, b) := ab in
  if input_is_ifg then
    map (fun e => phase_diff (at2 data e a) (at2 data e b) 0) (seq 0 (length ifgs))
  else
    map (fun ij => phase_diff (phase_diff (at2 data (fst ij) a) (at2 data (snd ij) a) 0)
                              (phase_diff (at2 data (fst ij) b) (at2 data (snd ij) b) 0) 0) ifgs.

(** _solver.py:198-212: residues of one link over the temporal cycles. *)
Definition time_residues (s : solver) (col : list Q) : list Z :=
  let acc := fold_left (fun acc t =>
      let '((c0, c1), ((d0, d1), v)) := t in
      let acc := upd acc c0 (nth c0 acc 0 + inject_Z d0 * v)%Q in
      if c1 =? 0 then acc else upd acc c1 (nth c1 acc 0 + inject_Z d1 * v)%Q)
    (combine (s_dual s) (combine (s_dir s) col))
    (repeat 0%Q (length (g_cycles (s_graph s)) + 1)) in
  round_residues (tl acc).

(** [x[i_start:i_end] = vals] on the list of columns. *)
Definition set_slice {A} (l : list A) (i_start : nat) (vals : list A) : list A :=
  firstn i_start l ++ vals ++ skipn (i_start + length vals) l.

Record settings := Settings {
  t_cost_type : cost_type; s_cost_type : cost_type;
  links_per_batch : nat; t_worker_count : Z; s_worker_count : Z
}.

Record emcf := Emcf {
  em_space : solver; em_time : solver; em_set : settings;
  (* distance and centroid costs of the two graphs *)
  em_tdist : list Z; em_tcent : list Z; em_sdist : list Z; em_scent : list Z
}.

Definition em_links (e : emcf) : list (nat * nat) := g_links (s_graph (em_space e)).
Definition em_ifgs (e : emcf) : list (nat * nat) := g_links (s_graph (em_time e)).
Definition em_nepochs (e : emcf) : nat := g_npoints (s_graph (em_time e)).
Definition em_npoints (e : emcf) : nat := g_npoints (s_graph (em_space e)).

(** Reading a column beyond the data raises IndexError. *)
Definition cols_ok (data : list (list Q)) (links : list (nat * nat)) : bool :=
  forallb (fun row => forallb (fun l => (fst l <? length row) && (snd l <? length row)) links) data.

(** _solver.py:171-224 one batch; [sched] may differ between batches. *)
Definition time_batch (sched : list nat -> list nat) (cpu : Z) (e : emcf) (cost : list Z)
    (is_ifg : bool) (data : list (list Q)) (bb : nat) (grad : list (list Q)) : res (list (list Q)) :=
  let n := length (em_links e) in
  let lpb := links_per_batch (em_set e) in
  let i_start := bb * lpb in
  let i_end := Nat.min (i_start + lpb) n in
  if i_end - i_start =? 0 then Ok grad
  else
    let inds := firstn (i_end - i_start) (skipn i_start (em_links e)) in
    if negb (cols_ok data inds) then Err IndexError
    else
      let cols := map (link_column is_ifg (em_ifgs e) data) inds in
      do flows <- residues_to_flows_many sched cpu (em_time e)
                    (map (time_residues (em_time e)) cols) cost None
                    (Some (t_worker_count (em_set e)));
      let cols' := map (fun cf => map (fun vk => fst vk + twopi * inject_Z (snd vk))%Q
                                    (combine (fst cf) (snd cf))) (combine cols flows) in
      Ok (set_slice grad i_start cols').

Fixpoint time_batches (sched : nat -> list nat -> list nat) (cpu : Z) (e : emcf) (cost : list Z)
    (is_ifg : bool) (data : list (list Q)) (bbs : list nat) (grad : list (list Q)) : res (list (list Q)) :=
  match bbs with
  | [] => Ok grad
  | bb :: t =>
      do g <- time_batch (sched bb) cpu e cost is_ifg data bb grad;
      time_batches sched cpu e cost is_ifg data t g
  end.

(** _solver.py:132-226 unwrap_gradients_in_time. Python's floor division makes
    nbatches 0 when there is no link. *)
Definition unwrap_gradients_in_time (sched : nat -> list nat -> list nat) (cpu : Z) (e : emcf)
    (is_ifg : bool) (data : list (list Q)) : res (list (list Q)) :=
  do cost <- pick_cost (t_cost_type (em_set e)) (length (em_ifgs e)) (em_tdist e) (em_tcent e);
  let n := length (em_links e) in
  let nbatches := match n with O => O | S m => m / links_per_batch (em_set e) + 1 end in
  time_batches sched cpu e cost is_ifg data (seq 0 nbatches)
    (repeat (repeat 0%Q (length (em_ifgs e))) n).

(** _solver.py:322-332 _unwrap_ifg_in_space. *)
Definition unwrap_ifg_in_space (s : solver) (cost : list Z) (row : list Q) : res (list Q) :=
  do residues <- compute_residues_from_gradients s row;
  do flows <- residues_to_flows smcf s residues cost None;
  flood_fill row (g_links (s_graph s)) flows Gradients.

(** _solver.py:228-279 unwrap_gradients_in_space. ProcessPoolExecutor raises
    ValueError when max_workers <= 0. [sched]: completion order. Each row has one
    entry per point if the last point has a link (numpy raises ValueError else),
    as in every graph that the theorems consider. *)
Definition unwrap_gradients_in_space (sched : list nat -> list nat) (cpu : Z) (e : emcf)
    (grad : list (list Q)) : res (list (list Q)) :=
  do cost <- pick_cost (s_cost_type (em_set e)) (length (em_links e)) (em_sdist e) (em_scent e);
  if (space_workers (s_worker_count (em_set e)) cpu <=? 0)%Z then Err ValueError
  else
    let nifgs := length (em_ifgs e) in
    let row ii := map (fun col => nth ii col 0%Q) grad in
    do rs <- map_res (fun ii => do d <- unwrap_ifg_in_space (em_space e) cost (row ii); Ok (ii, d))
               (sched (seq 0 nifgs));
    Ok (set_rows (repeat (repeat 0%Q (em_npoints e)) nifgs) rs).

(** The Irreg3DInput object handed to unwrap_cube: ndim, time_dim, data rows. *)
Record cube := Cube { cu_ndim : Z; cu_time_dim : Z; cu_data : list (list Q) }.

(** _solver.py:104-122: None = SLC, with the flag input_is_ifg. *)
Definition classify (e : emcf) (c : cube) : res bool :=
  if negb (cu_ndim c =? 2)%Z then Err ValueError
  else if negb (cu_time_dim c =? 0)%Z then Err NotImplementedError
  else if length (cu_data c) =? em_nepochs e then Ok false
  else if length (cu_data c) =? length (em_ifgs e) then Ok true
  else Err ValueError.

(** _solver.py:91-130 unwrap_cube. *)
Definition unwrap_cube (tsched : nat -> list nat -> list nat) (ssched : list nat -> list nat) (cpu : Z)
    (e : emcf) (c : cube) : res (list (list Q)) :=
  do is_ifg <- classify e c;
  do grad <- unwrap_gradients_in_time tsched cpu e is_ifg (cu_data c);
  unwrap_gradients_in_space ssched cpu e grad.

End WithSmcf.
