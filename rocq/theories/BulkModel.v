(** Model of /repo/src/spurt/workflows/emcf/_bulk_offset.py and of [l2_min]
    in /repo/src/spurt/utils/merge.py:93-130.

    Simplifications, shared by everything below:
    - The MIP solver (ortools pywraplp "SAT") is a parameter [solve]: given the
      variables' bounds, the linear equations and the objective it returns the
      values of an optimal solution, or [None] for any other status. Variable
      names are not modelled.
    - The dense least-squares solver (numpy lstsq) is a parameter [lsq], applied
      band by band; numpy solves the columns of the right-hand side
      independently. Its arithmetic is exact over the rationals.
    - int32 storage of results is exact because every variable is bounded by
      int32. *)
From Verif Require Import Base TileModel OverlapModel.
From Verif Require McfModel.
From Coq Require Import String.
From Coq Require Import List.
Import ListNotations.
Open Scope nat_scope.

(** A bounded integer linear program with equality constraints, to be
    minimised. A linear form is a list of (variable, coefficient). *)
Record mip := MIP {
  mip_bounds : list (Z * Z);
  mip_eqs : list (list (nat * Z) * Z);
  mip_obj : list (nat * Z) }.

Definition lin_val (x : list Z) (form : list (nat * Z)) : Z :=
  sumZ (map (fun t => snd t * nth (fst t) x 0)%Z form).

Definition int32_max : Z := McfModel.int32_max.

(** [np.argmax]: position of the first maximum; raises on an empty array. *)
Fixpoint argmax_from (i best : nat) (bestv : Z) (l : list Z) : nat :=
  match l with
  | [] => best
  | v :: t => if (bestv <? v)%Z then argmax_from (S i) i v t else argmax_from (S i) best bestv t
  end.
Definition argmax (l : list Z) : res nat :=
  match l with [] => Err ValueError | v :: t => Ok (argmax_from 1 0 v t) end.

(** _bulk_offset.py:195-201: the tile pinned to zero, per component label. *)
Definition pinned (labels : list nat) (counts : list Z) : res (list nat) :=
  match labels with
  | [] => Err ValueError
  | _ => map_res (fun ii =>
           let conn := filter (fun v => nth v labels 0 =? ii) (seq 0 (length labels)) in
           do largest <- argmax (map (fun v => nth v counts 0%Z) conn);
           Ok (nth largest conn 0)) (seq 0 (S (list_max labels)))
  end.

(** _bulk_offset.py:171-210. Variables: the tile offsets first, then for each
    overlap its two flow variables in the order of creation. *)
Definition offsets_mip (npts : nat) (olaps : list (nat * nat)) (off : list Z) (pins : list nat) : mip :=
  let nlinks := length olaps in
  let pf := fun k => npts + 2 * k in
  let nf := fun k => npts + 2 * k + 1 in
  MIP (repeat (- int32_max, int32_max)%Z npts
        ++ flat_map (fun _ => [(0, int32_max)%Z; (0, int32_max)%Z]) olaps)
      (map (fun k => let '(t1, t2) := nth k olaps (0, 0) in
             ([(t2, 1%Z); (t1, (-1)%Z); (pf k, 1%Z); (nf k, (-1)%Z)], nth k off 0%Z)) (seq 0 nlinks)
        ++ map (fun v => ([(v, 1%Z)], 0%Z)) pins)
      (map (fun k => (pf k, 1%Z)) (seq 0 nlinks) ++ map (fun k => (nf k, 1%Z)) (seq 0 nlinks)).

(** _bulk_offset.py:143-222. [ns[t]] raises IndexError on an unknown tile. *)
Definition solve_int_offsets (solve : mip -> option (list Z))
    (olaps : list (nat * nat)) (labels : list nat) (off counts : list Z) : res (list Z * Z) :=
  let npts := length labels in
  if existsb (fun p => (npts <=? fst p) || (npts <=? snd p)) olaps then Err IndexError
  else
    do pins <- pinned labels counts;
    let problem := offsets_mip npts olaps off pins in
    match solve problem with
    | None => Err RuntimeError
    | Some x => Ok (firstn npts x, lin_val x (mip_obj problem))
    end.

Definition dotQ (a b : list Q) : Q := sumQ (map (fun p => fst p * snd p)%Q (combine a b)).
Definition mat_vec (m : list (list Q)) (x : list Q) : list Q := map (fun row => dotQ row x) m.
Definition subQ (a b : list Q) : list Q := map (fun p => fst p - snd p)%Q (combine a b).

(** merge.py:93-130 for a non-empty dense matrix and one right-hand side. *)
Definition l2_min (lsq : list (list Q) -> list Q -> list Q) (amat : list (list Q)) (b : list Q)
    : res (list Q * list Q) :=
  if negb (length amat =? length b) then Err AssertionError
  else let x := lsq amat b in Ok (x, subQ b (mat_vec amat x)).

(** _bulk_offset.py:126-131: one row of the difference operator. *)
Definition diff_row (ntiles : nat) (p : nat * nat) : list Q :=
  upd (upd (repeat 0%Q ntiles) (fst p) (-1)%Q) (snd p) 1%Q.

(** _bulk_offset.py:98-140, one entry of [off] per band. With no overlaps
    [l2_min] returns flat arrays and [results[0][connnum, :]] raises. *)
Definition solve_l2_min (lsq : list (list Q) -> list Q -> list Q)
    (olaps : list (nat * nat)) (off : list (list Q)) (ntiles : nat) (counts : list Z)
    : res (list (list Q) * list Q) :=
  if existsb (fun p => (ntiles <=? fst p) || (ntiles <=? snd p)) olaps then Err IndexError
  else match olaps with
  | [] => Err IndexError
  | _ =>
    let cmat := map (diff_row ntiles) olaps in
    do results <- map_res (l2_min lsq cmat) off;
    do connnum <- argmax counts;
    Ok (map (fun xr => map (fun v => v - nth connnum (fst xr) 0)%Q (fst xr)) results,
        map (fun xr => sumQ (map Qabs (snd xr))) results)
  end.

(** _bulk_offset.py:60-63: valid pixels of the coherence mask per tile. Slices
    past the edge of the array are clipped, as numpy does. *)
Definition count_valid (arr : list (list bool)) (b : bbox) : Z :=
  Z.of_nat (length (filter (fun v => v)
    (flat_map (fun row => firstn (Z.to_nat (ymax b - ymin b)) (skipn (Z.to_nat (ymin b)) row))
       (firstn (Z.to_nat (xmax b - xmin b)) (skipn (Z.to_nat (xmin b)) arr))))).

(** _bulk_offset.py:15-94 for more than one tile, without the file handling
    (see the workflow model): the [offsets] dataset, bands x tiles, and the
    [residuals] one. Assumes one label per tile, which compute_phasediff_deciles
    writes (numpy raises ValueError else). *)
Definition get_bulk_offsets (solve : mip -> option (list Z)) (lsq : list (list Q) -> list Q -> list Q)
    (bulk_method : string) (f : overlap_file) (t : tileset) (arr : list (list bool))
    : res (list (list Q) * list Q) :=
  (* [fid[grp_name]] raises KeyError when the group is missing *)
  do groups <- map_res (fun p =>
       match find (fun g => (fst (og_pair g) =? fst p) && (snd (og_pair g) =? snd p)) (of_groups f) with
       | Some g => Ok g
       | None => Err KeyError
       end) (of_overlaps f);
  let offsets := map (fun g => map (fun row => nth 5 row 0%Z) (og_stats g)) groups in
  match offsets with
  | [] => Err IndexError
  | first :: _ =>
    let nbands := length first in
    let counts := map (count_valid arr) (tiles t) in
    let band := fun ii => map (fun x => nth ii x 0%Z) offsets in
    if String.eqb bulk_method "integer" then
      do sols <- map_res (fun ii => solve_int_offsets solve (of_overlaps f) (of_conn_comp f) (band ii) counts)
                         (seq 0 nbands);
      Ok (map (fun s => map inject_Z (fst s)) sols, map (fun s => inject_Z (snd s)) sols)
    else if String.eqb bulk_method "L2" then
      solve_l2_min lsq (of_overlaps f) (map (fun ii => map inject_Z (band ii)) (seq 0 nbands)) (ntiles t) counts
    else Err RuntimeError
  end.
