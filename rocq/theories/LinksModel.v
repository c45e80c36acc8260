(** Model of /repo/src/spurt/links: [_common.py] and [_grid_search.py].

    - Floats are exact reals; complex numbers are pairs of reals (real and
      imaginary part of w * exp(1j * r) are w * cos r and w * sin r).
    - A one-dimensional array is a list; a two-dimensional one the list of its
      rows together with the number of columns.
    - [scipy.optimize.brute] with its finishing [fmin] is the parameter [brute],
      returning the parameters and the value of the objective; its contract is in
      LinksSpec.v. *)
From Coq Require Import Reals.
From Verif Require Import Base EmcfModel.
Import ListNotations.
Local Open Scope nat_scope.

Definition vec := list R.
Record mat := Mat { m_rows : list vec; m_ncol : nat }.
Definition m_nrow (a : mat) : nat := length (m_rows a).

Definition sumR (l : vec) : R := fold_right Rplus 0%R l.

(** Element-wise operation of two one-dimensional arrays with numpy broadcasting. *)
Definition bcast (f : R -> R -> R) (a b : vec) : res vec :=
  if length a =? length b then Ok (map (fun p => f (fst p) (snd p)) (combine a b))
  else match a, b with
       | [x], _ => Ok (map (f x) b)
       | _, [y] => Ok (map (fun x => f x y) a)
       | _, _ => Err ValueError
       end.

(** [amat.dot(x)] *)
Definition dotR (a b : vec) : R := sumR (map (fun p => fst p * snd p)%R (combine a b)).
Definition mat_dot (a : mat) (x : vec) : res vec :=
  if length x =? m_ncol a then Ok (map (fun row => dotR row x) (m_rows a)) else Err ValueError.
(** [amat.T.dot(y)]: entry k is the sum over rows of amat[j, k] * y[j]. *)
Definition mat_t_dot (a : mat) (y : vec) : res vec :=
  if length y =? m_nrow a
  then Ok (map (fun k => dotR (map (fun row => nth k row 0%R) (m_rows a)) y) (seq 0 (m_ncol a)))
  else Err ValueError.

(** [wts]: a float, a 1D array or a 2D array. *)
Inductive weights := W0 (w : R) | W1 (w : vec) | W2 (w : mat).

(** [wts * v], flattened; numpy matches the last axis of a 2D array with [v]. *)
Definition weigh (w : weights) (v : vec) : res vec :=
  match w with
  | W0 x => Ok (map (Rmult x) v)
  | W1 l => bcast Rmult l v
  | W2 m => do rows <- map_res (fun row => bcast Rmult row v) (m_rows m); Ok (concat rows)
  end.

(** _common.py:25 and 39 *)
Definition residual (x : vec) (a : mat) (b : vec) : res vec :=
  do ax <- mat_dot a x; bcast Rminus ax b.

(** _common.py:7-26 neg_temporal_coherence *)
Definition neg_temporal_coherence (x : vec) (a : mat) (b : vec) (w : weights) : res R :=
  do r <- residual x a b;
  do re <- weigh w (map cos r);
  do im <- weigh w (map sin r);
  Ok (- sqrt (sumR re ^ 2 + sumR im ^ 2))%R.

(** _common.py:29-53 neg_temporal_coherence_with_jacobian, for weights that are
    a float or a 1D array ([cos(phase_diff) * wts] is [weigh] up to the order of
    the factors). Division by r = 0 gives NaN in numpy and an unspecified real
    here. *)
Definition neg_temporal_coherence_with_jacobian (x : vec) (a : mat) (b : vec) (w : weights) : res (R * vec) :=
  do phase_diff <- residual x a b;
  do cpdw <- weigh w (map cos phase_diff);
  do spdw <- weigh w (map sin phase_diff);
  let t1 := sumR cpdw in
  let t2 := sumR spdw in
  let r := (- sqrt (t1 ^ 2 + t2 ^ 2))%R in
  let t3 := (1 / (2 * r))%R in
  do u <- mat_t_dot a (map (fun s => 2 * - s)%R spdw);
  do v <- mat_t_dot a (map (fun c => 2 * c)%R cpdw);
  do s <- bcast Rplus (map (Rmult t1) u) (map (Rmult t2) v);
  Ok (r, map (Rmult t3) s).

Section Model.
  (** The ranges of the parameters, kept abstract. *)
  Context {range : Type}.
  (** [optimize.brute(neg_temporal_coherence, rngs, args=(matrix, wdata, wts),
      full_output=True, finish=optimize.fmin)] *)
  Variable brute : mat -> list range -> vec -> weights -> res (vec * R).

  Record link_model := LinkModel { lm_matrix : mat; lm_ranges : list range }.

  (** _grid_search.py:24-30 *)
  Definition link_model_init (a : mat) (rg : list range) : res link_model :=
    if m_ncol a =? length rg then Ok (LinkModel a rg) else Err ValueError.

  (** _grid_search.py:44-53 *)
  Definition nobs (m : link_model) : nat := m_nrow (lm_matrix m).
  Definition ndim (m : link_model) : nat := m_ncol (lm_matrix m).
  Definition fwd_model (m : link_model) (x : vec) : res vec := mat_dot (lm_matrix m) x.

  (** _grid_search.py:164-178 solve *)
  Definition solve (a : mat) (rg : list range) (wdata : vec) (w : weights) : res (vec * R) :=
    do r <- brute a rg wdata w;
    Ok (fst r, (- snd r)%R).

  (** [1.0 / self.nobs] raises ZeroDivisionError for an empty matrix. *)
  Definition default_weights (m : link_model) : res weights :=
    if nobs m =? 0 then Err ZeroDivisionError else Ok (W0 (/ INR (nobs m))).

  (** _grid_search.py:55-87 estimate_model, for 1D data (2D data raises
      ValueError). *)
  Definition estimate_model (m : link_model) (wrapdata : vec) (w : option weights) : res (vec * R) :=
    do w <- match w with None => default_weights m | Some w => Ok w end;
    match w with
    | W1 l => if length l =? length wrapdata then solve (lm_matrix m) (lm_ranges m) wrapdata w
              else Err ValueError
    | W2 _ => Err ValueError
    | W0 _ => solve (lm_matrix m) (lm_ranges m) wrapdata w
    end.

  (** [wrapdata[:, ii]] *)
  Definition column (d : mat) (ii : nat) : vec := map (fun row => nth ii row 0%R) (m_rows d).

  (** _grid_search.py:89-161 estimate_model_many, for 2D data (1D data raises
      ValueError). The result is the list of columns of [params] with the entries
      of [tcoh]. Lines 115-116, behind a [raise], are never reached, so
      [const_weights] stays True and every input gets all the weights.
      [sched]: completion order of the pool. *)
  Definition estimate_model_many (sched : list nat -> list nat) (cpu : Z) (m : link_model)
      (wrapdata : mat) (w : option weights) (wc : option Z) : res (list (vec * R)) :=
    if negb (m_nrow wrapdata =? nobs m) then Err ValueError
    else
      do w <- match w with
              | None => default_weights m
              | Some (W0 x) => Ok (W0 x)
              | Some (W1 l) => if length l =? nobs m then Ok (W1 l) else Err ValueError
              | Some (W2 l) =>
                  if negb ((m_nrow l =? m_nrow wrapdata) && (m_ncol l =? m_ncol wrapdata)) then Err ValueError
                  else if m_nrow l =? nobs m then Ok (W2 l) else Err ValueError
              end;
      let nruns := m_ncol wrapdata in
      let init := repeat (repeat 0%R (ndim m), 0%R) nruns in
      if (time_workers wc cpu =? 1)%Z then
        do rs <- map_res (fun ii => do r <- estimate_model m (column wrapdata ii) (Some w); Ok (ii, r))
                   (seq 0 nruns);
        Ok (set_rows init rs)
      else
        do rs <- map_res (fun ii => do r <- solve (lm_matrix m) (lm_ranges m) (column wrapdata ii) w; Ok (ii, r))
                   (sched (seq 0 nruns));
        Ok (set_rows init rs).
End Model.
Arguments link_model : clear implicits.
