(** Model of /repo/src/spurt/io/_slc_stack.py: [SLCStackReader].

    - A raster is the list of its rows. Reading a window (io/_raster.py:277-292)
      is numpy slicing with nonnegative bounds; rasterio's errors for windows
      that miss the raster are not modelled.
    - SLC samples have an arbitrary type [C] with a distinguished [one]; the
      conversion to complex64 is not modelled. Quality values are rationals,
      [None] is not-a-number.
    - A folder is the list of names it holds; [glob] is the test on the suffix.
    - Paths of one folder compare by name, names by character code. *)
From Coq Require Export String Ascii.
From Verif Require Import Base TileModel NamesModel.
From Verif Require Export ThreeDModel.
From Coq Require Import List.
Import ListNotations.
Local Open Scope string_scope.

(** * Names *)

(** [s.split("_")] *)
Fixpoint split_us (s : string) : string * list string :=
  match s with
  | "" => ("", [])
  | String c t =>
      let '(h, r) := split_us t in
      if Ascii.eqb c "_" then ("", h :: r) else (String c h, r)
  end.
Definition py_split (s : string) : list string := let '(h, r) := split_us s in h :: r.

(** [s[:8]] *)
Definition first8 (s : string) : string := substring 0 8 s.

(** [glob("*" + suffix)] on a name *)
Fixpoint ends_with (suffix s : string) : bool :=
  String.eqb s suffix || match s with "" => false | String _ t => ends_with suffix t end.

(** [sorted] on strings *)
Fixpoint insert_str (x : string) (l : list string) : list string :=
  match l with
  | [] => [x]
  | y :: t => if String.leb x y then x :: l else y :: insert_str x t
  end.
Definition sort_str (l : list string) : list string := fold_right insert_str [] l.

(** A Python dict in insertion order; [d[k]] and [k in d]. *)
Definition dict := list (string * option string).
Fixpoint dict_get (k : string) (d : dict) : option (option string) :=
  match d with
  | [] => None
  | (k', v) :: t => if String.eqb k' k then Some v else dict_get k t
  end.
Definition dict_has (k : string) (d : dict) : bool := existsb (String.eqb k) (map fst d).

(** * Scanning folders *)

(** _slc_stack.py:94-112: the loop over files. [d[k] = v] on a new key appends. *)
Fixpoint scan_linked (folder first_date : string) (slclist : list string) (d : dict) : res dict :=
  match slclist with
  | [] => Ok d
  | slc :: rest =>
      if negb (String.prefix first_date slc) then Err ValueError
      else match py_split slc with
           | _ :: field :: _ =>
               let acq_date := first8 field in
               if dict_has acq_date d then Err ValueError
               else scan_linked folder first_date rest (d ++ [(acq_date, Some (path_join folder slc))])%list
           | _ => Err IndexError
           end
  end.

(** _slc_stack.py:63-116, up to the constructor call. *)
Definition from_phase_linked_directory (folder : string) (listing : list string) : res dict :=
  if negb (existsb (String.eqb "temporal_coherence.tif") listing) then Err ValueError
  else
    let slclist := sort_str (filter (ends_with ".int.tif") listing) in
    match slclist with
    | [] => Err IndexError
    | slc0 :: _ =>
        let first_date := first8 (hd "" (py_split slc0)) in
        scan_linked folder first_date slclist [(first_date, None)]
    end.

(** _slc_stack.py:145-155 *)
Fixpoint scan_slc (folder : string) (slclist : list string) (d : dict) : res dict :=
  match slclist with
  | [] => Ok d
  | slc :: rest =>
      let acq_date := first8 (hd "" (py_split slc)) in
      if dict_has acq_date d then Err ValueError
      else scan_slc folder rest (d ++ [(acq_date, Some (path_join folder slc))])%list
  end.

(** _slc_stack.py:118-159, up to the constructor call. *)
Definition from_slc_directory (folder : string) (listing : list string) : res dict :=
  if negb (existsb (String.eqb "inv_amp_dispersion.tif") listing) then Err ValueError
  else scan_slc folder (sort_str (filter (ends_with ".slc.tif") listing)) [].

(** _slc_stack.py:57 *)
Definition dates_of (d : dict) : list string := sort_str (map fst d).

(** * Reading *)
Local Open Scope nat_scope.

(** _slc_stack.py:161-168 with the window [box.space] (utils/_tiling.py:55-58). *)
Definition read_window {A} (img : list (list A)) (b : bbox) : list (list A) :=
  map (fun row => firstn (Z.to_nat (ymax b - ymin b)) (skipn (Z.to_nat (ymin b)) row))
    (firstn (Z.to_nat (xmax b - xmin b)) (skipn (Z.to_nat (xmin b)) img)).

(** [x > threshold] *)
Definition above (thr : Q) (x : option Q) : bool :=
  match x with Some q => negb (Qle_bool q thr) | None => false end.

(** [img[msk]]: numpy raises IndexError when the shapes differ. *)
Definition same_shape {A B} (a : list (list A)) (b : list (list B)) : bool :=
  (length a =? length b) && forallb (fun p => length (fst p) =? length (snd p)) (combine a b).
Definition select {A} (img : list (list A)) (msk : list (list bool)) : res (list A) :=
  if same_shape img msk then
    Ok (flat_map (fun p => map fst (filter snd (combine (fst p) (snd p)))) (combine img msk))
  else Err IndexError.

Section Stack.
  Context {C : Type} (one : C).

  Record slc_stack := SlcStack {
    st_files : dict;
    st_coh : list (list (option Q));            (* content of temp_coh_file *)
    st_threshold : Q;
    st_slc : string -> option (list (list C))   (* content of an SLC file *)
  }.
  Definition st_dates (s : slc_stack) : list string := dates_of (st_files s).

  (** The mask of lines 185 and _unwrap.py:78,82. *)
  Definition tile_mask (s : slc_stack) (b : bbox) : list (list bool) :=
    map (map (above (st_threshold s))) (read_window (st_coh s) b).

  (** _slc_stack.py:170-174 *)
  Definition get_valid_count (s : slc_stack) : nat :=
    length (filter (above (st_threshold s)) (concat (st_coh s))).

  (** _slc_stack.py:191-200, one date. *)
  Definition read_date (s : slc_stack) (b : bbox) (msk : list (list bool)) (n : nat) (date : string)
    : res (list C) :=
    match dict_get date (st_files s) with
    | None => Err KeyError
    | Some None => Ok (repeat one n)
    | Some (Some f) =>
        match st_slc s f with
        | None => Err FileNotFoundError
        | Some img => select (read_window img b) msk
        end
    end.

  (** _slc_stack.py:176-202 *)
  Definition read_tile (s : slc_stack) (b : bbox) : res (@irreg3d C Z) :=
    let msk := tile_mask s b in
    let xy := nonzero msk in
    let n := length xy in
    do rows <- map_res (read_date s b msk n) (st_dates s);
    irreg3d_init (NdArray [length (st_dates s); n] (concat rows))
      (NdArray [n; 2] (flat_map (fun p => [fst p; snd p]) xy)) 0.

  (** _slc_stack.py:204-209 *)
  Definition read_temporal_coherence (s : slc_stack) (b : bbox) : list (list (option Q)) :=
    read_window (st_coh s) b.
End Stack.
Arguments slc_stack : clear implicits.
