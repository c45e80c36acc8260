(** Model of the workflow steps and their files: [main] in
    /repo/src/spurt/workflows/emcf/_cli.py:155-169 and the functions it calls,
    [get_tiles] (_tiling.py), [unwrap_tiles] (_unwrap.py),
    [compute_phasediff_deciles] (_overlap.py), [get_bulk_offsets]
    (_bulk_offset.py) and [merge_tiles] (_merge.py).

    Simplifications, shared by everything below:
    - The file system maps the paths of NamesModel to contents. Opening a file
      for writing, filling and closing it is one atomic write; the process can
      stop between two writes only. Folders exist.
    - A program is the tree of its reads and writes. Other inputs (coherence
      mask, solvers, settings) are in the record [env].
    - Georeferencing copied from the last SLC ([like]) is not modelled. *)
From Verif Require Import Base TileModel JsonModel NamesModel OverlapModel BulkModel MergeModel.
From Coq Require Import List.
Import ListNotations.

Inductive content :=
  | CText (s : string)                                   (* tiles.json *)
  | CTile (f : tile_file)                                (* uw_tile_*.h5 *)
  | CGroups (g : list overlap_group)                     (* overlaps.h5 before its last two datasets *)
  | COverlaps (f : overlap_file)                         (* overlaps.h5 *)
  | COffsets (method : string) (offsets : list (list Q)) (residuals : list Q)  (* bulk_offsets.h5 *)
  | CRaster (r : raster).                                (* GeoTIFF *)

Definition fs : Type := string -> option content.
Definition write : Type := string * content.
Definition store (s : fs) (w : write) : fs := fun n => if String.eqb n (fst w) then Some (snd w) else s n.
Definition apply_writes (s : fs) (ws : list write) : fs := fold_left store ws s.

Inductive prog (A : Type) :=
  | Ret (a : A)
  | Fail (e : exn)
  | Read (n : string) (k : option content -> prog A)
  | Write (n : string) (c : content) (k : prog A).
Arguments Ret {A} a. Arguments Fail {A} e. Arguments Read {A} n k. Arguments Write {A} n c k.

Fixpoint then_ {A B} (p : prog A) (k : A -> prog B) : prog B :=
  match p with
  | Ret a => k a
  | Fail e => Fail e
  | Read n c => Read n (fun o => then_ (c o) k)
  | Write n c q => Write n c (then_ q k)
  end.
Notation "'let!' x := m 'in' k" := (then_ m (fun x => k))
  (at level 200, x pattern, m at level 100, k at level 200, right associativity).

(** The writes of a run, in order, and how it ends. *)
Fixpoint run {A} (p : prog A) (s : fs) : list write * res A :=
  match p with
  | Ret a => ([], Ok a)
  | Fail e => ([], Err e)
  | Read n k => run (k (s n)) s
  | Write n c k => let r := run k (store s (n, c)) in ((n, c) :: fst r, snd r)
  end.

Definition lift {A} (r : res A) : prog A := match r with Ok a => Ret a | Err e => Fail e end.
Definition is_file (n : string) : prog bool :=
  Read n (fun o => Ret (match o with Some _ => true | None => false end)).
Fixpoint each {A} (f : A -> prog unit) (l : list A) : prog unit :=
  match l with
  | [] => Ret tt
  | a :: t => let! _ := f a in each f t
  end.
Fixpoint collect {A B} (f : A -> prog B) (l : list A) : prog (list B) :=
  match l with
  | [] => Ret []
  | a :: t => let! b := f a in let! bs := collect f t in Ret (b :: bs)
  end.

(** Inputs, settings and solvers of a run. *)
Record env := Env {
  (* folders, dates and interferograms *)
  e_tmp : string; e_out : string; e_dates : list string; e_ifgs : list (nat * nat);
  (* temporal coherence above the threshold *)
  e_valid : list (list bool);
  (* [_unwrap_one_tile]: the file written for a tile with these bounds *)
  e_unwrap : bbox -> res tile_file;
  (* order in which the pool finishes its tasks *)
  e_sched : list nat -> list nat;
  (* settings *)
  e_use_tiles : bool; e_tiler : tiler_settings; e_parallel_tiles : Z;
  e_min_overlap : Z; e_method : string; e_bulk_method : string; e_parallel_ifgs : Z;
  (* tiler choices and solvers, as in the other models *)
  e_pick : picker; e_root : nat -> Z;
  e_components : nat -> list (nat * nat) -> list nat;
  e_mip : mip -> option (list Z); e_lsq : list (list Q) -> list Q -> list Q;
  e_cg : list (list Q) -> list Q -> list Q; e_ilu : list (list Q) -> bool;
  e_triangles : list (Z * Z) -> res (list (nat * nat * nat)) }.

Section Steps.
  Context (e : env).

  (** Reading the files; h5py raises FileNotFoundError or KeyError. *)
  Definition read_tileset : prog tileset :=
    Read (tiles_jsonname (e_tmp e)) (fun o =>
      match o with
      | None => Fail FileNotFoundError
      | Some (CText s) => lift (from_json s)
      | Some _ => Fail ValueError
      end).
  Definition read_tile (i : nat) : prog tile_file :=
    Read (tile_filename (e_tmp e) i) (fun o =>
      match o with
      | None => Fail FileNotFoundError
      | Some (CTile f) => Ret f
      | Some _ => Fail KeyError
      end).
  Definition read_overlaps : prog overlap_file :=
    Read (overlap_filename (e_tmp e)) (fun o =>
      match o with
      | None => Fail FileNotFoundError
      | Some (COverlaps f) => Ret f
      | Some _ => Fail KeyError
      end).
  Definition read_offsets : prog (list (list Q)) :=
    Read (offsets_filename (e_tmp e)) (fun o =>
      match o with
      | None => Fail FileNotFoundError
      | Some (COffsets m off _) => if String.eqb m (e_bulk_method e) then Ret off else Fail KeyError
      | Some _ => Fail KeyError
      end).

  (** _tiling.py:12-65 *)
  Definition get_tiles_step : prog unit :=
    let json := tiles_jsonname (e_tmp e) in
    let! exists_ := is_file json in
    if exists_ then Ret tt
    else
      let! t := lift (get_tiles (e_pick e) (e_root e) (e_use_tiles e) (e_tiler e) (e_valid e)) in
      Write json (CText (to_json t)) (Ret tt).

  (** _unwrap.py:54-56: tasks in the order they finish. Every task runs, because
      leaving the [with] block waits for the pool; the first exception found is
      raised. *)
  Fixpoint pool (task : nat -> res tile_file) (order : list nat) : prog (option exn) :=
    match order with
    | [] => Ret None
    | i :: t =>
      match task i with
      | Ok f => Write (tile_filename (e_tmp e) i) (CTile f) (pool task t)
      | Err x => let! _ := pool task t in Ret (Some x)
      end
    end.

  (** _unwrap.py:19-56. Each task loads the tile set again, from the same file. *)
  Definition unwrap_tiles : prog unit :=
    let! t := read_tileset in
    if (e_parallel_tiles e <=? 0)%Z then Fail ValueError
    else
      let! missing := collect (fun i => let! b := is_file (tile_filename (e_tmp e) i) in
                                        Ret (if b then [] else [i])) (seq 0 (ntiles t)) in
      let! failed := pool (fun i => e_unwrap e (nth i (tiles t) (BBox 0 0 0 0))) (e_sched e (concat missing)) in
      match failed with
      | None => Ret tt
      | Some x => Fail x
      end.

  (** _overlap.py:44-77: the loop over pairs. The file is opened again to append
      each group. [gs] are the groups in the file so far. *)
  Fixpoint overlap_loop (files : list tile_file) (t : tileset) (gs : list overlap_group) (pairs : list (nat * nat))
      : prog (list overlap_group) :=
    match pairs with
    | [] => Ret gs
    | p :: rest =>
      let! o := lift (overlap_pair (e_min_overlap e) files t p) in
      match o with
      | None => overlap_loop files t gs rest
      | Some g => Write (overlap_filename (e_tmp e)) (CGroups (gs ++ [g])) (overlap_loop files t (gs ++ [g]) rest)
      end
    end.

  (** _overlap.py:15-90. The code loads the files of overlapping tiles only;
      here all are loaded. *)
  Definition overlaps_step : prog unit :=
    let! exists_ := is_file (overlap_filename (e_tmp e)) in
    if exists_ then Ret tt
    else
      let! t := read_tileset in
      if (ntiles t =? 1)%nat then Ret tt
      else
        let! files := collect read_tile (seq 0 (ntiles t)) in
        let! gs := overlap_loop files t [] (get_overlaps t) in
        Write (overlap_filename (e_tmp e))
          (COverlaps (OFile gs (e_components e (ntiles t) (map og_pair gs)) (map og_pair gs))) (Ret tt).

  (** _bulk_offset.py:15-94 *)
  Definition offsets_step : prog unit :=
    let! exists_ := is_file (offsets_filename (e_tmp e)) in
    if exists_ then Ret tt
    else
      let! t := read_tileset in
      if (ntiles t =? 1)%nat then Ret tt
      else
        let! f := read_overlaps in
        let! r := lift (get_bulk_offsets (e_mip e) (e_lsq e) (e_bulk_method e) f t (e_valid e)) in
        Write (offsets_filename (e_tmp e)) (COffsets (e_bulk_method e) (fst r) (snd r)) (Ret tt).

  (** _merge.py:35-40 *)
  Definition output_files : res (list string) :=
    map_res (fun ij =>
      match nth_error (e_dates e) (fst ij), nth_error (e_dates e) (snd ij) with
      | Some d1, Some d2 => Ok (unw_filename (e_out e) d1 d2)
      | _, _ => Err IndexError
      end) (e_ifgs e).

  (** _output.py:149-188 *)
  Definition write_single_tile (f : tile_file) (sh : Z * Z) (fnames : list string) : prog unit :=
    each (fun kn =>
      let! exists_ := is_file (snd kn) in
      if exists_ then Ret tt
      else
        let! r := lift (single_band f (fst kn) sh) in
        Write (snd kn) (CRaster r) (Ret tt)) (combine (seq 0 (length fnames)) fnames).

  (** _output.py:191-298 *)
  Definition write_merged_band (ts : list tile) (fname : string) (idx : nat) (sh : Z * Z) : prog unit :=
    let! exists_ := is_file fname in
    if exists_ then Ret tt
    else
      let! r := lift (merged_band ts idx sh) in
      let '(arr, diff, model) := r in
      Write fname (CRaster arr)
        (Write (diff_filename fname) (CRaster diff)
          (Write (model_filename fname) (CRaster model) (Ret tt))).

  (** _merge.py:63-74: the bands of each batch. Zero means that nothing can be
      merged: [np.arange] with step zero raises ZeroDivisionError. *)
  Definition batch_size (parallel : Z) (nifgs : nat) : nat :=
    let b := Z.min parallel (Z.of_nat nifgs) in
    if (b <? 1)%Z then nifgs else Z.to_nat b.
  Definition batches (size nifgs : nat) : list (list nat) :=
    map (fun b => seq (b * size) (Nat.min (b * size + size) nifgs - b * size))
        (seq 0 ((nifgs + size - 1) / size)).

  (** _merge.py:72-107: one batch *)
  Definition merge_bands (f : overlap_file) (omap : list (list nat)) (max_degree : nat) (bulk : list (list Q))
      (sh : Z * Z) (files : list tile_file) (fnames : list string) (bands : list nat) : prog unit :=
    let! missing := collect (fun i => let! b := is_file (nth i fnames ""%string) in
                                      Ret (if b then [] else [i])) bands in
    match concat missing with
    | [] => Ret tt
    | idx =>
      let! ts := lift (start_tiles files bulk idx) in
      let! ts := lift (adjust_tiles (e_cg e) (e_ilu e) (e_triangles e) f omap max_degree ts) in
      each (fun i => write_merged_band ts (nth i fnames ""%string) i sh) idx
    end.

  (** _merge.py:16-109 *)
  Definition merge_tiles : prog (list string) :=
    if negb (String.eqb (e_method e) "dirichlet") then Fail NotImplementedError
    else
      let! t := read_tileset in
      let! files := collect read_tile (seq 0 (ntiles t)) in
      let! fnames := lift output_files in
      if (ntiles t =? 1)%nat then
        let! _ := write_single_tile (nth 0 files (TileFile [] (BBox 0 0 0 0) [] [])) (shape t) fnames in
        Ret fnames
      else
        let! f := read_overlaps in
        let! omap := lift (overlap_map f) in
        let! max_degree := lift (get_max_degree (map file_coords files) (shape t)) in
        let! bulk := read_offsets in
        match batch_size (e_parallel_ifgs e) (length fnames) with
        | O => Fail ZeroDivisionError
        | size =>
          let! _ := each (merge_bands f omap max_degree bulk (shape t) files fnames) (batches size (length fnames)) in
          Ret fnames
        end.

  (** _cli.py:155-169 *)
  Definition main : prog (list string) :=
    let! _ := get_tiles_step in
    let! _ := unwrap_tiles in
    let! _ := overlaps_step in
    let! _ := offsets_step in
    merge_tiles.
End Steps.
