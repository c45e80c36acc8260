(** Model of [l2_min], [l2_min_cg], [dirichlet] and [dirichlet_graph] in
    /repo/src/spurt/utils/merge.py:93-371.

    Simplifications, shared by everything below:
    - Matrices are lists of rows, with a [storage] where it matters; in
      [dirichlet_graph] they are sparse. Arithmetic is exact over the rationals;
      float32 storage of the corrections is not modelled.
    - scipy's [cg] is a parameter: any function from the matrix and right-hand
      side to a vector. Whether it converged is never looked at by the code.
      A negative status, which scipy does not return, is not modelled.
    - scipy's [spilu] is a parameter [ilu] that tells whether it succeeds; it
      raises RuntimeError otherwise. The preconditioner only steers [cg].
    - Log messages are not modelled, only the [enable_logging] tests that guard
      more than a message. *)
From Verif Require Import Base BulkModel.
Local Open Scope Q_scope.

(** [l[mask]] *)
Fixpoint sel {A} (mask : list bool) (l : list A) : list A :=
  match mask, l with
  | true :: m, x :: t => x :: sel m t
  | false :: m, _ :: t => sel m t
  | _, _ => []
  end.

(** [base[mask] = vals]. The number of values always is the number of selected
    positions here (numpy raises otherwise); spare positions keep their value. *)
Fixpoint put {A} (mask : list bool) (vals base : list A) : list A :=
  match mask, base with
  | true :: m, b :: t =>
      match vals with
      | v :: vs => v :: put m vs t
      | [] => b :: put m [] t
      end
  | false :: m, b :: t => b :: put m vals t
  | _, _ => base
  end.

Definition off (mask : list bool) : list bool := map negb mask.

(** [amat[:, ~mask][~mask, :]] *)
Definition free_block (mask : list bool) (amat : list (list Q)) : list (list Q) :=
  sel (off mask) (map (sel (off mask)) amat).

Definition is_square {A} (amat : list (list A)) : bool :=
  forallb (fun row => (length row =? length amat)%nat) amat.
Definition all_zero (v : list Q) : bool := forallb (fun x => Qeq_bool x 0) v.
Definition entry (amat : list (list Q)) (i j : nat) : Q := nth j (nth i amat []) 0.

(** merge.py:188: symmetric up to exact equality, for a square matrix *)
Definition symmetric (amat : list (list Q)) : bool :=
  let n := length amat in
  forallb (fun i => forallb (fun j => Qeq_bool (entry amat i j) (entry amat j i)) (seq 0 n)) (seq 0 n).
(** [np.transpose(amat)], for a matrix with [ncols] columns *)
Definition transpose (ncols : nat) (amat : list (list Q)) : list (list Q) :=
  map (fun j => map (fun i => entry amat i j) (seq 0 (length amat))) (seq 0 ncols).
(** [np.dot(a, b)], [b] with [ncols] columns *)
Definition mat_mul (ncols : nat) (a b : list (list Q)) : list (list Q) :=
  map (fun row => map (fun col => dotQ row col) (transpose ncols b)) a.

(** A scipy sparse matrix or a numpy array. *)
Inductive storage := Sparse | Dense.

(** [np.size(amat) == 0]: the number of stored entries of a sparse matrix, of all
    entries of an array. Zeros are not stored: true of the products and
    sub-matrices that spurt passes. *)
Definition size_zero (k : storage) (ncols : nat) (amat : list (list Q)) : bool :=
  match k with
  | Sparse => forallb all_zero amat
  | Dense => (length amat =? 0)%nat || (ncols =? 0)%nat
  end.

(** merge.py:93-130 [l2_min], for a right-hand side with one column ([l2_min] of
    BulkModel.v is the case of a non-empty dense matrix). [lsq] and [lsqr]
    stand for numpy's dense and scipy's sparse least squares solver. The length
    of [b] is only checked after the test for an empty matrix. *)
Definition l2_min_full (lsq lsqr : list (list Q) -> list Q -> list Q) (k : storage) (ncols : nat)
    (amat : list (list Q)) (b : list Q) : res (list Q * list Q) :=
  if size_zero k ncols amat then Ok (repeat 0 ncols, repeat 0 (length amat))
  else if negb (length amat =? length b)%nat then Err AssertionError
  else
    let x := match k with Dense => lsq amat b | Sparse => lsqr amat b end in
    Ok (x, subQ b (mat_vec amat x)).

Section Solvers.
  Context (cg : list (list Q) -> list Q -> list Q) (ilu : list (list Q) -> bool).

  (** merge.py:133-240; solution and residual, without the preconditioner.
      [x0] and [maxiter] steer [cg]; [maxiter] is kept because the log messages
      depend on it. Two calls raise ValueError:
      - line 194, [np.dot(np.transpose(amat), b)] for a sparse [amat]: [np.dot]
        does not know sparse matrices and multiplies the matrix with each entry of
        [b], so [rhs] is an array of matrices, which [cg] cannot convert to
        floats;
      - line 237, [lpnorm(rn, 2)] when [rn] is None. *)
  Definition l2_min_cg (k : storage) (logging : bool) (maxiter : option Z) (ncols : nat)
      (amat : list (list Q)) (b : list Q) : res (list Q * list Q) :=
    let nrows := length amat in
    if negb (nrows =? length b)%nat then Err AssertionError
    else if size_zero k ncols amat then Ok (repeat 0 ncols, repeat 0 nrows)
    else if all_zero b then Ok (repeat 0 ncols, repeat 0 nrows)
    else if (nrows =? ncols)%nat && symmetric amat then
      if negb (ilu amat) then Err RuntimeError
      else
        let x := cg amat b in
        match maxiter with
        | None => if logging then Err ValueError else Ok (x, subQ b (mat_vec amat x))
        | Some _ => Ok (x, subQ b (mat_vec amat x))
        end
    else
      let at_ := transpose ncols amat in
      let mat := mat_mul ncols at_ amat in
      if negb (ilu mat) then Err RuntimeError
      else match k with
           | Sparse => Err ValueError
           | Dense => let x := cg mat (mat_vec at_ b) in Ok (x, subQ b (mat_vec amat x))
           end.

  (** merge.py:243-291; solution and residual *)
  Definition dirichlet (k : storage) (logging : bool) (amat : list (list Q)) (b xf : list Q) (mask : list bool)
      : res (list Q * list Q) :=
    if negb (is_square amat) then Err AssertionError
    else
      let rhs := subQ b (map (fun row => dotQ (sel mask row) (sel mask xf)) amat) in
      let block := free_block mask amat in
      do sol <- l2_min_cg k logging (Some 100%Z) (length block) block (sel (off mask) rhs);
      let x := put mask (sel mask xf) (put (off mask) (fst sol) (repeat 0 (length xf))) in
      Ok (x, subQ b (mat_vec amat x)).

  (** merge.py:335-371, the loop body for one row of [xf] *)
  Definition dirichlet_row (logging : bool) (amat : list (list Q)) (mask : list bool) (xf : list Q)
      : res (list Q) :=
    let mat := free_block mask amat in
    let b := sel (off mask) (map (fun row => - dotQ (sel mask row) (sel mask xf)) amat) in
    if negb (length mat =? length b)%nat then Err AssertionError
    else if (forallb all_zero amat || all_zero b) && logging
    then Ok (put (off mask) (repeat 0 (length mat)) xf)
    else Ok (put (off mask) (cg mat b) xf).

  (** merge.py:294-371. [ncols] is [xf.shape[1]]. *)
  Definition dirichlet_graph (logging : bool) (amat : list (list Q)) (ncols : nat) (xf : list (list Q))
      (mask : list bool) : res (list (list Q)) :=
    if negb (is_square amat) then Err AssertionError
    else if negb (length amat =? ncols)%nat then Err AssertionError
    else if negb (ilu (free_block mask amat)) then Err RuntimeError
    else map_res (dirichlet_row logging amat mask) xf.
End Solvers.
