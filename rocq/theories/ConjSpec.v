(** Vocabulary: the same data with every phase replaced by its negative (complex
    conjugate samples), and the min-cost-flow problem seen in a mirror. *)
From Verif Require Import Base GraphModel GraphSpec McfModel McfSpec TileModel TileSpec SlcModel SlcSpec PipelineSpec OverlapModel OverlapSpec BulkModel BulkSpec MergeModel MergeSpec ShiftSpec.
From Coq Require Import List.
Import ListNotations.
Local Open Scope Q_scope.

(** The second list holds the negatives of the first. *)
Definition opposite (u u' : list Q) : Prop :=
  length u' = length u /\ forall v, nth v u' 0 == - nth v u 0.

(** Row by row. *)
Definition opposite_rows (d d' : list (list Q)) : Prop :=
  length d' = length d /\ forall t, opposite (nth t d []) (nth t d' []).

(** The two halves of a list of even length change places. *)
Definition swap_halves {A} (l : list A) : list A :=
  if Nat.even (length l) then skipn (Nat.div2 (length l)) l ++ firstn (Nat.div2 (length l)) l else l.

(** An arc in the other direction. *)
Definition flip (a : arc) : arc := Arc (a_to a) (a_from a) (a_cap a) (a_cost a).

(** The second solver answers the mirrored question (arcs the other way, the forward
    and the backward ones exchanged, sources made sinks) as the first one does. *)
Definition mirrors (smcf smcf' : list arc -> list Z -> option (list Z)) : Prop :=
  forall arcs supply, smcf' (swap_halves (map flip arcs)) (map Z.opp supply) = option_map swap_halves (smcf arcs supply).

(** A second stack on disk: the same dates and valid pixels, every phase negated. *)
Definition conjugate_stack (st st' : slc_stack Q) : Prop :=
  st_files st' = st_files st /\ st_coh st' = st_coh st /\ st_threshold st' = st_threshold st /\
  forall t x p p', (t < length (st_dates st))%nat -> valid_pixel st x ->
    slc_phase st (nth t (st_dates st) ""%string) x = Some p -> slc_phase st' (nth t (st_dates st) ""%string) x = Some p' -> p' == - p.

(** The phases of the second list of tile files are the negatives of the first. *)
Definition opposite_files (bands : nat) (files files' : list tile_file) : Prop :=
  forall b i p, (b < bands)%nat -> (p < length (tf_points (nth i files no_file)))%nat ->
    phase_of (nth i files' no_file) b p == - phase_of (nth i files no_file) b p.

(** The same overlaps and shared pixels. The statistics of a band, from the minimum to
    the maximum, are those of the first file negated and read backwards. *)
Definition opposite_group (g g' : overlap_group) : Prop :=
  og_pair g' = og_pair g /\ og_c1 g' = og_c1 g /\ og_c2 g' = og_c2 g /\
  Forall2 (fun row row' => length row = 11%nat /\ row' = rev (map Z.opp row)) (og_stats g) (og_stats g').
Definition opposite_overlaps (f f' : overlap_file) : Prop :=
  Forall2 opposite_group (of_groups f) (of_groups f') /\ of_conn_comp f' = of_conn_comp f /\ of_overlaps f' = of_overlaps f.

(** Negating the right-hand side negates the answer of the linear solver. *)
Definition odd_solver (solve : list (list Q) -> list Q -> list Q) : Prop :=
  forall a b b', Forall2 (fun x y => y == - x) b b' -> Forall2 (fun x y => y == - x) (solve a b) (solve a b').

(** The second value is the negative of the first; NaN stays NaN. *)
Definition neg_opt (o o' : option Q) : Prop :=
  match o, o' with Some v, Some v' => v' == - v | None, None => True | _, _ => False end.

(** A solution of the program for the tile offsets, turned round: the offsets negated,
    and the two variables of every overlap exchanged. *)
Fixpoint swap_pairs (l : list Z) : list Z :=
  match l with a :: b :: t => b :: a :: swap_pairs t | _ => l end.
Definition turn (npts : nat) (x : list Z) : list Z := map Z.opp (firstn npts x) ++ swap_pairs (skipn npts x).

(** The second solver answers the program for the negated differences with the turned
    answer of the first. *)
Definition turns (solve solve' : mip -> option (list Z)) : Prop :=
  forall npts olaps off pins, (forall p, In p olaps -> fst p < npts /\ snd p < npts)%nat -> (forall v, In v pins -> v < npts)%nat ->
    solve' (offsets_mip npts olaps (map Z.opp off) pins) = option_map (turn npts) (solve (offsets_mip npts olaps off pins)).
