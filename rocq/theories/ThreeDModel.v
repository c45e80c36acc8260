(** Model of /repo/src/spurt/io/_three_d.py: [Reg3DInput] and [Irreg3DInput].

    A numpy array is its shape and its elements in row-major (C) order; dtype,
    strides and the copy/view distinction are not modelled. Python integers are
    Z, axis lengths nat. *)
From Verif Require Import Base.
Import ListNotations.

Definition prod (l : list nat) : nat := fold_right Nat.mul 1 l.

Record ndarray (A : Type) := NdArray { nd_shape : list nat; nd_flat : list A }.
Arguments NdArray {A} nd_shape nd_flat. Arguments nd_shape {A} n. Arguments nd_flat {A} n.

(** An array really has as many elements as its shape says. *)
Definition nd_wf {A} (a : ndarray A) : Prop := length (nd_flat a) = prod (nd_shape a).
Definition nd_ndim {A} (a : ndarray A) : Z := Z.of_nat (length (nd_shape a)).

(** Position of a multi-index in row-major order. *)
Fixpoint ravel (shape idx : list nat) : nat :=
  match shape, idx with
  | _ :: ds, i :: is => i * prod ds + ravel ds is
  | _, _ => 0
  end.

(** [np.unravel_index(key, shape)]; numpy raises ValueError out of range. *)
Fixpoint unravel (shape : list nat) (k : nat) : list nat :=
  match shape with
  | [] => []
  | _ :: ds => k / prod ds :: unravel ds (k mod prod ds)
  end.
Definition unravel_index (key : Z) (shape : list nat) : res (list nat) :=
  if ((key <? 0) || (Z.of_nat (prod shape) <=? key))%Z then Err ValueError
  else Ok (unravel shape (Z.to_nat key)).

(** [slice(None)] and [slice(a, b)] applied to an axis of length [n]: the
    positions selected. Negative bounds count from the end. *)
Inductive pyslice := SAll | SRange (lo hi : Z).
Definition clamp (x : Z) (n : nat) : nat :=
  let n' := Z.of_nat n in
  Z.to_nat (Z.min n' (if x <? 0 then Z.max 0 (x + n') else x))%Z.
Definition slice_indices (s : pyslice) (n : nat) : list nat :=
  match s with
  | SAll => seq 0 n
  | SRange lo hi => seq (clamp lo n) (clamp hi n - clamp lo n)
  end.

(** All multi-indices with one entry from each list, last one fastest. *)
Fixpoint cart (sel : list (list nat)) : list (list nat) :=
  match sel with
  | [] => [[]]
  | l :: ls => flat_map (fun i => map (cons i) (cart ls)) l
  end.

(** [list.insert(i, x)] *)
Definition py_insert {A} (l : list A) (i : Z) (x : A) : list A :=
  let k := clamp i (length l) in firstn k l ++ x :: skipn k l.

(** [shape[i]] with Python's negative indices. *)
Definition py_nth (l : list nat) (i : Z) : res nat :=
  let j := if (i <? 0)%Z then (i + Z.of_nat (length l))%Z else i in
  if ((j <? 0) || (Z.of_nat (length l) <=? j))%Z then Err IndexError
  else Ok (nth (Z.to_nat j) l 0).

Section Data.
  Context {A : Type} (d : A).  (* [d] fills list look-ups that never miss *)

  (** [np.ravel(a[ind])] for a tuple of slices; missing trailing slices select
      whole axes, too many raise IndexError. *)
  Definition getitem (a : ndarray A) (ind : list pyslice) : res (list A) :=
    let sh := nd_shape a in
    if length sh <? length ind then Err IndexError
    else
      let full := ind ++ repeat SAll (length sh - length ind) in
      Ok (map (fun idx => nth (ravel sh idx) (nd_flat a) d)
            (cart (map (fun p => slice_indices (fst p) (snd p)) (combine full sh)))).

  (** [slice(None) if ii != axis else slice(key, key + 1) for ii in range(ndim)] *)
  Definition one_axis (axis key : Z) (ndim : nat) : list pyslice :=
    map (fun ii => if (Z.of_nat ii =? axis)%Z then SRange key (key + 1) else SAll) (seq 0 ndim).

  (** * Reg3DInput *)

  Record reg3d := Reg3D { r_data : ndarray A; r_time_dim : Z }.

  (** _three_d.py:24-56. Only an upper bound is checked. *)
  Definition reg3d_init (data : ndarray A) (time_dim : Z) : res reg3d :=
    if negb (nd_ndim data =? 3)%Z then Err ValueError
    else if (nd_ndim data <=? time_dim)%Z then Err ValueError
    else Ok (Reg3D data time_dim).

  (** _three_d.py:70-78 *)
  Definition reg_time_dim (r : reg3d) : nat := if (0 <? r_time_dim r)%Z then 1 else 0.
  Definition reg_space_dim (r : reg3d) : nat := if (r_time_dim r =? 0)%Z then 1 else 0.

  (** _three_d.py:80-92 *)
  Definition space_shape (r : reg3d) : list nat :=
    let sh := nd_shape (r_data r) in
    map snd (filter (fun p => negb (Z.of_nat (fst p) =? r_time_dim r)%Z)
               (combine (seq 0 (length sh)) sh)).
  Definition space_size (r : reg3d) : nat := prod (space_shape r).
  Definition time_size (r : reg3d) : res nat := py_nth (nd_shape (r_data r)) (r_time_dim r).

  (** _three_d.py:94-99 *)
  Definition reg_shape (r : reg3d) : res (nat * nat) :=
    do t <- time_size r;
    Ok (if reg_time_dim r =? 0 then (t, space_size r) else (space_size r, t)).

  (** _three_d.py:101-115 (the arange runs over the whole data shape). *)
  Definition reg_xcoords (r : reg3d) : list nat :=
    map (fun k => k mod nth 1 (space_shape r) 0) (seq 0 (prod (nd_shape (r_data r)))).
  Definition reg_ycoords (r : reg3d) : list nat :=
    map (fun k => k / nth 1 (space_shape r) 0) (seq 0 (prod (nd_shape (r_data r)))).

  (** _three_d.py:117-126 *)
  Definition reg_get_time_slice (r : reg3d) (key : Z) : res (list A) :=
    getitem (r_data r) (one_axis (r_time_dim r) key (length (nd_shape (r_data r)))).

  (** _three_d.py:128-138 *)
  Definition reg_get_spatial_slice (r : reg3d) (key : Z) : res (list A) :=
    do idx <- unravel_index key (space_shape r);
    let ind := map (fun x => SRange (Z.of_nat x) (Z.of_nat x + 1)) idx in
    getitem (r_data r) (py_insert ind (r_time_dim r) SAll).

  (** * Irreg3DInput *)

  (** [xy] holds coordinates of any type; only its shape is checked. *)
  Record irreg3d (B : Type) := Irreg3D { i_data : ndarray A; i_xy : ndarray B; i_time_dim : Z }.
  Arguments Irreg3D {B}. Arguments i_data {B}. Arguments i_xy {B}. Arguments i_time_dim {B}.

  (** _three_d.py:148-198 *)
  Definition irreg3d_init {B} (data : ndarray A) (xy : ndarray B) (time_dim : Z) : res (irreg3d B) :=
    if negb (nd_ndim data =? 2)%Z then Err ValueError
    else if negb (nd_ndim xy =? 2)%Z then Err ValueError
    else if (nd_ndim data <=? time_dim)%Z then Err ValueError
    else
      do n <- py_nth (nd_shape data) (1 - time_dim);
      if negb (nth 0 (nd_shape xy) 0 =? n) then Err ValueError
      else Ok (Irreg3D data xy time_dim).

  (** _three_d.py:212-230 *)
  Definition irreg_space_dim {B} (r : irreg3d B) : Z := (1 - i_time_dim r)%Z.
  Definition irreg_shape {B} (r : irreg3d B) : list nat := nd_shape (i_data r).

  (** _three_d.py:242-256 and 258-272 *)
  Definition irreg_get_time_slice {B} (r : irreg3d B) (key : Z) : res (list A) :=
    getitem (i_data r) (one_axis (i_time_dim r) key (length (nd_shape (i_data r)))).
  Definition irreg_get_spatial_slice {B} (r : irreg3d B) (key : Z) : res (list A) :=
    getitem (i_data r) (one_axis (irreg_space_dim r) key (length (nd_shape (i_data r)))).
End Data.
Arguments Irreg3D {A B}. Arguments i_data {A B}. Arguments i_xy {A B}. Arguments i_time_dim {A B}.
Arguments Reg3D {A}. Arguments r_data {A}. Arguments r_time_dim {A}.

(** _three_d.py:232-240: [self._xy[:, slice(0, 1)]] and [slice(1, 2)], flattened. *)
Definition irreg_xcoords {A B} (b : B) (r : @irreg3d A B) : res (list B) :=
  getitem b (i_xy r) [SAll; SRange 0 1].
Definition irreg_ycoords {A B} (b : B) (r : @irreg3d A B) : res (list B) :=
  getitem b (i_xy r) [SAll; SRange 1 2].
