(** spurt.mcf with rounded arithmetic: the functions of McfModel.v in which every
    operation on phases is followed by the rounding of the format it is done in.

    - [f1]: rounding of [z1 - z0]; [f2]: of the other operations of phase_diff.
      For float64 phases both are float64. For complex64 samples np.angle gives
      float32: on arrays both are float32; on scalars both are float32 with
      NumPy 2, while NumPy 1 (pyproject.toml:29 allows >= 1.23) combines a
      float32 scalar and a Python float to float64, so that [f2] is float64.
    - [fe]: float64, the type of the residue sums, of [2 * np.pi * flows[ii]] and
      of [unwrapped].
    - [fs]: float32, the type of the sums of compute_residues_from_gradients.
    Overflow, underflow, NaN and the sign of zero are not represented. *)
From Verif Require Import Base GraphModel McfModel FloatModel.

(** Nearest value with [bits + 1] significant bits, ties to even: 23 for float32,
    52 for float64. *)
Definition rnd_at (bits : Z) (x : Q) : Q :=
  match Qcompare x 0 with
  | Eq => 0
  | Gt => let u := pow2 (qlog2 x - bits) in (inject_Z (rint (x / u)) * u)%Q
  | Lt => let u := pow2 (qlog2 (- x) - bits) in (- (inject_Z (rint (- x / u)) * u))%Q
  end.
Definition rnd32 : Q -> Q := rnd_at 23.

(** The double 1e-3. *)
Definition tol : Q := rnd64 (1 # 1000).

Section Rounded.
Local Open Scope Q_scope.

(** mcf/utils.py:6-28: [model + d - np.round(d / (2 * np.pi)) * 2 * np.pi], from
    left to right. [twopi] is the double 2 * np.pi, its half the double np.pi. *)
Definition cycles_fl (f1 f2 : Q -> Q) (p0 p1 model : Q) : Z :=
  rint (f2 (f2 (f1 (p1 - p0) - model) / f2 twopi)).
Definition phase_diff_fl (f1 f2 : Q -> Q) (p0 p1 model : Q) : Q :=
  let d := f2 (f1 (p1 - p0) - model) in
  let k := rint (f2 (d / f2 twopi)) in
  f2 (f2 (model + d) - f2 (f2 (inject_Z k * 2) * f2 (twopi / 2))).

(** mcf/_ortools.py:126-148 compute_residues *)
Definition round_residues_fl (fe : Q -> Q) (t : Q) (sums : list Q) : list Z :=
  let r := map (fun x => rint (fe (x / t))) sums in (- sumZ r)%Z :: r.
Definition compute_residues_fl (f1 f2 fe : Q -> Q) (s : solver) (p : list Q) : res (list Z) :=
  let g := s_graph s in
  if negb (length p =? g_npoints g)%nat then Err ValueError
  else
    do ndim <- cycle_length g;
    if existsb (existsb (fun v => g_npoints g <=? v)%nat) (g_cycles g) then Err IndexError
    else Ok (round_residues_fl fe twopi (map (fun c =>
      fold_left (fun acc e => fe (acc + phase_diff_fl f1 f2 (nth (fst e) p 0) (nth (snd e) p 0) 0))
        (steps c ndim) 0) (g_cycles g))).

(** [np.add.at(acc, idx, vals)]; [add] adds one value and stores the result. *)
Definition add_at_fl (add : Q -> Q -> Q) (acc : list Q) (idx : list nat) (vals : list Q) : list Q :=
  fold_left (fun acc iv => upd acc (fst iv) (add (nth (fst iv) acc 0) (snd iv))) (combine idx vals) acc.

(** mcf/_ortools.py:150-175 compute_residues_from_gradients. The products with
    the directions +1, -1 and 0 are exact. *)
Definition compute_residues_from_gradients_fl (fs : Q -> Q) (add : Q -> Q -> Q) (s : solver) (gr : list Q)
    : res (list Z) :=
  let g := s_graph s in
  if negb (length gr =? length (g_links g))%nat then Err ValueError
  else
    let acc := repeat 0 (length (g_cycles g) + 1) in
    let acc := add_at_fl add acc (map fst (s_dual s))
                 (map (fun dg => inject_Z (fst dg) * snd dg) (combine (map fst (s_dir s)) gr)) in
    let acc := add_at_fl add acc (map snd (s_dual s))
                 (map (fun dg => inject_Z (fst dg) * snd dg) (combine (map snd (s_dir s)) gr)) in
    Ok (round_residues_fl fs (fs twopi) (tl acc)).

(** mcf/utils.py:103-114. [pd a b]: the phase difference of two points, as
    computed on scalars. *)
Definition link_grads_fl (fe : Q -> Q) (pd : Q -> Q -> Q) (m : mode) (indata : list Q)
    (links : list (nat * nat)) (flows : list Z) : list Q :=
  map (fun ii =>
    let l := nth ii links (0, 0)%nat in
    fe ((match m with
         | Points => pd (nth (fst l) indata 0) (nth (snd l) indata 0)
         | _ => nth ii indata 0
         end) + fe (twopi * inject_Z (nth ii flows 0%Z)))) (seq 0 (length links)).

(** mcf/utils.py:145-165 *)
Definition ff_nbr_fl (fe : Q -> Q) (i : nat) (st : ff) (jg : nat * Q) : ff :=
  let '(j, g) := jg in
  let u := fe (nth i (ff_unw st) 0 + g) in
  if negb (nth j (ff_done st) false) then
    FF (upd (ff_done st) j true) (ff_todo st ++ [j]) (upd (ff_unw st) j u) (ff_err st)
  else
    let diff := fe (u - nth j (ff_unw st) 0) in
    if Qle_bool diff tol && Qle_bool (- tol) diff then st
    else FF (ff_done st) (ff_todo st) (ff_unw st) (S (ff_err st)).

(** mcf/utils.py:139-165 *)
Fixpoint ff_loop_fl (fe : Q -> Q) (fuel : nat) (adj : nat -> list (nat * Q)) (st : ff) : res ff :=
  match ff_todo st with
  | [] => Ok st
  | i :: rest =>
      match fuel with
      | O => Err OutOfFuel
      | S fuel =>
          ff_loop_fl fe fuel adj
            (fold_left (ff_nbr_fl fe i) (adj i) (FF (ff_done st) rest (ff_unw st) (ff_err st)))
      end
  end.

(** mcf/utils.py:41-186 flood_fill *)
Definition flood_fill_fl (fe : Q -> Q) (pd : Q -> Q -> Q) (indata : list Q) (links : list (nat * nat))
    (flows : list Z) (m : mode) : res (list Q) :=
  if negb (length links =? length flows)%nat then Err ValueError
  else match m with OtherMode => Err ValueError | _ =>
    do npts <- max_point links;
    if negb (length indata =? match m with Gradients => length links | _ => npts end)%nat
    then Err ValueError
    else
      let adj := nbrs links (link_grads_fl fe pd m indata links flows) in
      do st <- ff_loop_fl fe npts adj
                 (FF (upd (repeat false npts) 0%nat true) [0%nat] (repeat 0 npts) 0%nat);
      if (0 <? ff_err st)%nat then Err ValueError
      else if negb (forallb (fun b => b) (ff_done st)) then Err ValueError
      else match m with
           | Points => Ok (map (fun x => fe (x + nth 0 indata 0)) (ff_unw st))
           | _ => Ok (ff_unw st)
           end
  end.

(** mcf/_ortools.py:177-196 unwrap_one. The residues use phase differences of
    arrays ([f1], [f2]), the integration those of scalars ([g1], [g2]). *)
Definition unwrap_one_fl (f1 f2 g1 g2 fe : Q -> Q) (smcf : list arc -> list Z -> option (list Z))
    (s : solver) (wrapdata : list Q) (cost : list Z) (revcost : option (list Z))
    : res (list Q * list Z) :=
  do residues <- compute_residues_fl f1 f2 fe s wrapdata;
  do flows <- residues_to_flows smcf s residues cost
                (Some (match revcost with None => cost | Some rc => rc end));
  do unw <- flood_fill_fl fe (fun a b => phase_diff_fl g1 g2 a b 0) wrapdata (g_links (s_graph s)) flows Points;
  Ok (unw, flows).

(** workflows/emcf/_solver.py:321-331 _unwrap_ifg_in_space: residues of the given
    link gradients, flows, integration. *)
Definition unwrap_ifg_in_space_fl (fs fe : Q -> Q) (add : Q -> Q -> Q)
    (smcf : list arc -> list Z -> option (list Z)) (s : solver) (cost : list Z) (row : list Q) : res (list Q) :=
  do residues <- compute_residues_from_gradients_fl fs add s row;
  do flows <- residues_to_flows smcf s residues cost None;
  flood_fill_fl fe (fun _ _ => 0) row (g_links (s_graph s)) flows Gradients.
End Rounded.
