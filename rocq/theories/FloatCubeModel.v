(** EMCFSolver (workflows/emcf/_solver.py) with rounded arithmetic: the functions
    of EmcfModel.v in which every operation on phases is followed by the rounding
    of the format it is done in. The integer parts (residues_to_flows_many,
    costs, worker counts) are those of EmcfModel.v.

    Overflow, underflow, NaN and the sign of zero are not represented. *)
From Verif Require Import Base GraphModel McfModel EmcfModel FloatModel FloatMcfModel.
Local Open Scope nat_scope.

(** - [f_d], [f_o]: rounding of [z1 - z0] and of the other operations of
      phase_diff on arrays (FloatMcfModel.v): float32 for complex64 samples.
    - [f_s]: float32, the type of [grad_space], [grad_sum] and [uw_data].
    - [f_e]: float64, the type of [2 * np.pi * flows.T] and inside flood_fill.
    - [a_t]: [grad_sum += dir * grad]; one or two roundings, as NumPy 1 and 2
      differ in the type of the product.
    - [a_c]: [grad_space += 2 * np.pi * flows.T]: float32 plus float64, stored
      as float32.
    - [a_g]: np.add.at of compute_residues_from_gradients. *)
Record formats := Formats {
  f_d : Q -> Q; f_o : Q -> Q; f_s : Q -> Q; f_e : Q -> Q;
  a_t : Q -> Q -> Q; a_c : Q -> Q -> Q; a_g : Q -> Q -> Q
}.

(** complex64 samples. *)
Definition single : formats :=
  let store_sum a b := rnd32 (rnd64 (a + b)%Q) in
  Formats rnd32 rnd32 rnd32 rnd64 (fun a b => rnd32 (a + b)%Q) store_sum store_sum.

Section WithFormats.
Variable (F : formats) (smcf : list arc -> list Z -> option (list Z)).

Definition pd_arr (p0 p1 : Q) : Q := phase_diff_fl (f_d F) (f_o F) p0 p1 0%Q.

(** _solver.py:303-319 (SLC input) and 186-189 (interferogram input); the
    assignment to [grad_space] rounds. *)
Definition link_column_fl (input_is_ifg : bool) (ifgs : list (nat * nat)) (data : list (list Q))
    (ab : nat * nat) : list Q :=
  let '(a, b) := ab in
  if input_is_ifg then
    map (fun e => f_s F (pd_arr (at2 data e a) (at2 data e b))) (seq 0 (length ifgs))
  else
    map (fun ij => f_s F (pd_arr (pd_arr (at2 data (fst ij) a) (at2 data (snd ij) a))
                                 (pd_arr (at2 data (fst ij) b) (at2 data (snd ij) b)))) ifgs.

(** _solver.py:198-212. The products with +1, -1 and 0 are exact. *)
Definition time_residues_fl (s : solver) (col : list Q) : list Z :=
  let acc := fold_left (fun acc t =>
      let '((c0, c1), ((d0, d1), v)) := t in
      let acc := upd acc c0 (a_t F (nth c0 acc 0%Q) (inject_Z d0 * v)%Q) in
      if c1 =? 0 then acc else upd acc c1 (a_t F (nth c1 acc 0%Q) (inject_Z d1 * v)%Q))
    (combine (s_dual s) (combine (s_dir s) col))
    (repeat 0%Q (length (g_cycles (s_graph s)) + 1)) in
  round_residues_fl (f_s F) (f_s F twopi) (tl acc).

(** _solver.py:223-224 *)
Definition shift_fl (v : Q) (k : Z) : Q := a_c F v (f_e F (twopi * inject_Z k)%Q).

(** _solver.py:171-224 one batch. *)
Definition time_batch_fl (sched : list nat -> list nat) (cpu : Z) (e : emcf) (cost : list Z)
    (is_ifg : bool) (data : list (list Q)) (bb : nat) (grad : list (list Q)) : res (list (list Q)) :=
  let n := length (em_links e) in
  let lpb := links_per_batch (em_set e) in
  let i_start := bb * lpb in
  let i_end := Nat.min (i_start + lpb) n in
  if i_end - i_start =? 0 then Ok grad
  else
    let inds := firstn (i_end - i_start) (skipn i_start (em_links e)) in
    if negb (cols_ok data inds) then Err IndexError
    else
      let cols := map (link_column_fl is_ifg (em_ifgs e) data) inds in
      do flows <- residues_to_flows_many smcf sched cpu (em_time e)
                    (map (time_residues_fl (em_time e)) cols) cost None
                    (Some (t_worker_count (em_set e)));
      let cols' := map (fun cf => map (fun vk => shift_fl (fst vk) (snd vk))
                                    (combine (fst cf) (snd cf))) (combine cols flows) in
      Ok (set_slice grad i_start cols').

Fixpoint time_batches_fl (sched : nat -> list nat -> list nat) (cpu : Z) (e : emcf) (cost : list Z)
    (is_ifg : bool) (data : list (list Q)) (bbs : list nat) (grad : list (list Q)) : res (list (list Q)) :=
  match bbs with
  | [] => Ok grad
  | bb :: t =>
      do g <- time_batch_fl (sched bb) cpu e cost is_ifg data bb grad;
      time_batches_fl sched cpu e cost is_ifg data t g
  end.

(** _solver.py:132-226 unwrap_gradients_in_time *)
Definition unwrap_gradients_in_time_fl (sched : nat -> list nat -> list nat) (cpu : Z) (e : emcf)
    (is_ifg : bool) (data : list (list Q)) : res (list (list Q)) :=
  do cost <- pick_cost (t_cost_type (em_set e)) (length (em_ifgs e)) (em_tdist e) (em_tcent e);
  let n := length (em_links e) in
  let nbatches := match n with O => O | S m => m / links_per_batch (em_set e) + 1 end in
  time_batches_fl sched cpu e cost is_ifg data (seq 0 nbatches)
    (repeat (repeat 0%Q (length (em_ifgs e))) n).

(** _solver.py:228-279 unwrap_gradients_in_space; the assignment to [uw_data]
    rounds. *)
Definition unwrap_gradients_in_space_fl (sched : list nat -> list nat) (cpu : Z) (e : emcf)
    (grad : list (list Q)) : res (list (list Q)) :=
  do cost <- pick_cost (s_cost_type (em_set e)) (length (em_links e)) (em_sdist e) (em_scent e);
  if (space_workers (s_worker_count (em_set e)) cpu <=? 0)%Z then Err ValueError
  else
    let nifgs := length (em_ifgs e) in
    let row ii := map (fun col => nth ii col 0%Q) grad in
    do rs <- map_res (fun ii => do d <- unwrap_ifg_in_space_fl (f_s F) (f_e F) (a_g F) smcf (em_space e) cost (row ii);
                                Ok (ii, map (f_s F) d))
               (sched (seq 0 nifgs));
    Ok (set_rows (repeat (repeat 0%Q (em_npoints e)) nifgs) rs).

(** _solver.py:91-130 unwrap_cube *)
Definition unwrap_cube_fl (tsched : nat -> list nat -> list nat) (ssched : list nat -> list nat) (cpu : Z)
    (e : emcf) (c : cube) : res (list (list Q)) :=
  do is_ifg <- classify e c;
  do grad <- unwrap_gradients_in_time_fl tsched cpu e is_ifg (cu_data c);
  unwrap_gradients_in_space_fl ssched cpu e grad.
End WithFormats.
