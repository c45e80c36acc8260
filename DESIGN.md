# Formal model of isce-framework/spurt in Rocq (Coq 8.16.1)

## 1. What the theorems are about

`/repo` (Python/numpy) was read as text; nothing was run. Each `*Model.v` file
transcribes functions of the repo, branch by branch, into total Gallina
functions. Python exceptions are values (`res A := Ok a | Err exn`). Every
definition carries a comment citing the file and lines it models and the
simplifications made. `*Spec.v` files hold the vocabulary in which the
properties are stated, independent of the model's helpers. `*Proofs.v` hold the
lemmas; `Props_*.v` hold the property theorems, `Print Assumptions` for each of
them, and the `Example`s showing that the hypotheses can be met.

### Arithmetic

* Integers are unbounded (`nat`/`Z`), except where a property is about width:
  then the wrap is explicit (int32 keys of `find_common_points`, uint8 pixel
  degree, int32 flow capacity, int16 deciles).
* Phases are exact rationals `Q`. `twopi : Q` is the exact value of the double
  `2*np.pi` (every finite float is a rational, so the code's own constant is
  representable). Sums, differences, products are exact: **float rounding is not
  modelled** in these files. `np.round`/`np.rint` are modelled exactly
  (round half to even). Proofs only use `0 < twopi`, so they hold for every
  positive period. Where rounding changes the answer (tile borders computed with
  `np.ogrid`) binary64 rounding is the function `rnd64 : Q -> Q` of
  `FloatModel.v`, defined and characterised there; primitive floats are not used.
* Trigonometry, square roots and derivatives (link coherence, edge costs) use
  the standard library's reals `R`.
* Complex samples: the code only uses `np.angle` of them or of products with
  conjugates. The model takes the list of phases.

### External code (oracles)

An external call is a function parameter; what is assumed about it is a visible
hypothesis of the theorem, and each hypothesis is shown satisfiable.

| external | parameter | assumed |
|---|---|---|
| ortools SimpleMinCostFlow | `smcf : arcs -> supplies -> option flows` | an answer reported OPTIMAL is a feasible minimum-cost integer flow (and, where liveness is claimed, one is reported whenever a feasible flow exists) |
| ortools pywraplp SAT | `mip` | same for the integer program |
| numpy lstsq / scipy lsqr | `lsq` | returns a minimiser of the squared residual |
| scipy spilu+cg | `cg` | nothing for "fixed values kept" theorems; "solves the system exactly" for harmonicity / maximum principle |
| scipy.spatial.Delaunay | list of triangles | nothing for link theorems; the `planar` contract for unwrapping theorems |
| scipy connected_components | labels | same label iff connected |
| multiprocessing pools | list of completions | an arbitrary permutation of the submitted tasks |
| rasterio / h5py / filesystem | maps from names to contents | reads return what was written; crash model described below |
| scipy.optimize.brute | function parameter | returns a point with its value, at least as good as every grid point |

## 2. Plan per property

| id | model | proof |
|---|---|---|
| C01,C02 | `Hop3Graph` construction, sorted set of sides | closed form of the sorted set by induction on n; traversal counting; explicit potential (prefix sums) |
| C03,C04 | `Reg2DGraph` | index arithmetic; potential by first column then rows |
| C05 | `_create_links` on any triangles | insertion into a sorted duplicate-free list |
| C06 | incidence matrix product | sums over links |
| C07 | `phase_diff` | rounding lemmas |
| C08 | `_prepare_dual` with the dict as an ordered association list | invariant over the nested loop: entry of a link = its traversals so far |
| C09,C10,C11,C12 | residues, `solve_mcf` | double counting links/cycles; flow conservation = curl; bijection between arc flows and signed corrections |
| C13,C14 | `flood_fill` worklist with fuel | loop invariant; fuel = number of points suffices |
| C15,C16 | composition | previous results + span property |
| C17,C24,C46,C54 | results written by index from any permutation | permutation induction |
| C18,C19 | worker count arithmetic | case analysis; the spatial step is expected to be refuted on one cpu |
| C20-C23,C25 | EMCF solver | batches as segments of the link list; reuse C09-C16 |
| C26-C31 | BBox/TileSet/tilers | interval arithmetic; induction over the recursion with an arbitrary choice function for the scoring; binary64 refutation for `create_tiles_regular` |
| C32 | decimal formatting as strings | injectivity by parsing back |
| C33 | key encoding, np.intersect1d | Euclidean division; wrap at 2^32 |
| C34 | percentile with linear interpolation | monotonicity |
| C35,C36 | integer program / least squares | consistency gives zero objective; connectivity gives uniqueness |
| C37 | Tile state machine | invariant over operations |
| C38 | Dirichlet reductions | maximum principle along paths |
| C39,C40 | adjustment loop | invariant: tiles agree where degree >= current; Jacobi form |
| C41,C42 | merged band | per-pixel folds over tiles |
| C43 | merge_tiles batches | segments + filter |
| C44,C45 | file-state machine with crash points | refinement to run-to-completion; refuted where a step's marker file appears before the step is complete |
| C47 | settings validators | decision equivalence |
| C48,C49 | row-major 3D indexing | div/mod |
| C50,C51 | raster windows, file names | list lemmas, strings |
| C52,C53,C55,C57 | reals | trigonometric identities, derivatives |
| C58 | composition of all models | C20-C23 per tile, C30 coverage, C34-C43 merging |
| C59 | composition of all models | zero residues give the true gradients (C13-C16); exact medians, then consistent bulk offsets (C35, C36); tiles that agree are not changed (C39) |
| C60 | composition of all models | every guard and solver call of the run succeeds: whole-cycle differences pass the overlap checks, planar triangulations give square Laplacians of full size |
| C61 | triangles as given | remove a boundary cycle with one boundary link; what is left is a tree |
| C62 | any rounding with bounded relative error | near-equality carried through sums and breadth-first search; turns rounded to the same integers |
| C63, C64 | rasterio dataset as a record | splicing lists; dict lookup after update |
| C65 | composition of all models; executable flow solver with price certificates for the witness | C60 with differences of tiles that are whole cycles depending on the pixel, so that medians and deciles are bounded but not constant |
| C66 | any rounding with bounded relative error, one band | distance to the common field carried through sums, averages and passes; wrapping to whole cycles restores the precision of the files |
| C67, C68 | cuts at any index; scores in real arithmetic | position of a cut in the sorted coordinates; loss through ties summed over the levels; scores compared by monotonicity |
| C69 | any rounding with bounded relative error | rounded double differences near exact ones; residues in time and space as turns of integers; C62 for each interferogram |
| C70 | as C69, smooth history | C69 with enumeration as solver: double differences, residues and flows are forced; then any solver and costs give the same run |
| C71 | rounded tiles, overlaps, bulk offsets and merge in sequence | C70 for each tile; deciles and bulk offsets of tiles one whole number of cycles apart are those of exact arithmetic; then C66 |
| C72 | `l2_min`, `l2_min_cg` by storage | normal equations are positive definite for a matrix without kernel; witnesses for the calls that raise |
| C73 | two runs of `unwrap_cube`, `unwrap_one`, `_unwrap_one_tile` | congruence of every step for lists of equal rationals; wrapped differences that are not half a cycle are determined by their class |
| C74 | every `Err` of the models | case analysis of the guards, stated by shapes, indices and keys; the rounded walk visits the same points as the exact one |
| C75 | `unwrap_one`, `unwrap_cube` | a competitor gives a correction of the same residues, so C11 applies; its price is the weight of the changed differences; triangle inequality for the bounds; a 4 x 4 stack on which the optimal flows are unique for the refutation |
| C76 | `compute_phasediff_deciles`, `get_bulk_offsets`, `merge_batch` | the recorded median is the number of the majority; the bulk offsets then follow the added cycles (C59's argument on medians); induction over the passes of the adjustment for two related runs; per band, the rounding commutes with whole cycles except at ties |
| C77 | `merge_batch` | the two related runs of C76, with the relation kept for fewer tiles after each pass |
| C78 | `solve`, `scipy.optimize.brute` | the points of `np.mgrid` characterised; the nearest grid point has a sum of phasors at least the cosine of the largest phase error; the sum of phasors projected on its own direction for the share of bad observations |
| C79 | `unwrap_cube` | the two steps taken apart; sums around cycles are linear and vanish exactly for differences of node values; the counterexample by enumerating the cheapest flows of two cells |
| C80 | rounded workflow on any stack | induction along the tree of the flood fill: each value is its parent plus a gradient congruent to the data, so errors add up per link; wrapping around the model adds whole cycles whatever the model is |
| C81 | `read_tile`, `_unwrap_one_tile`, `main`, both steps of the solver | two runs compared; boolean indexing looks at selected pixels only; programs with the same runs are closed under sequencing |
| C82 | `unwrap_one`, `unwrap_cube`, twice | the result is congruent to the data (C15, C22), and the solver depends on the data modulo whole cycles only (C73) |
| C83 | the rounded workflow ends | the closure check of `flood_fill` within its tolerance (C70), the statistics of the overlaps equal to those of exact tiles (C66), so the exact argument for overlaps and bulk offsets applies |
| C84 | `unwrap_one`, `unwrap_cube`, `_unwrap_one_tile`, overlaps, merge, on changed phases | residues do not change when no wrapped difference jumps; the flood fill adds the change up along its tree; every step of the merge is a mean, a harmonic correction of differences or a rounding of differences, so a common field passes through |
| C85 | `rnd32`, `rnd64` and every stored value of the rounded workflow | numbers of the format are multiples of the last bit of the binade or lie below it; every array assignment in the model ends with the rounding of its type |
| C86 | two runs with opposite phases, from `unwrap_one` to the merge | a flow problem and its mirror image (arcs reversed, supplies negated) have mirrored optima; residues, wrapped differences and rounding half to even are odd; order statistics of negated integers are read backwards; the program of the tile offsets has a symmetry that exchanges the two variables of an overlap |
| C87 | `get_tiles`, number of tiles | the rounded root is compared with multiples of 2^-10, whose squares are doubles in this range; the density tiler returns the largest square that is allowed |
| C88 | `SLCStackReader`, `_unwrap_one_tile`, overlaps, merge, on stacks with the same interferograms | the change of the reference adds the same amount to all dates, so C84 applies with nothing added to any interferogram; a wrapped phase of exactly half a cycle has two values |
| C89 | `TileSet.dilate`, `get_tiles`, whole workflow | truncation moves a lower edge by a line as soon as the rounded amount is not lost; step by step along a walk two tiles share the pixel before the cut; with C59 the constants of the tiles along a walk agree, with C71 also after rounding |
| C90 | tiles to merged rasters, two stacks that differ by constants | as C84 on the sides of the triangles; only the phase of the first pixel can jump, which adds cycles to the whole tile; the constants pass the merge by C84, the cycles by C76 |
| C91 | `_score_rectangle`, `_find_best_split`, `split_rectangle` | the clipped root minimises the diagonal on the interval; sums of lengths telescope to cuts; `argmin` gives the first minimum or the first nan; roundings counted through the score |

## 3. Trusted base

Coq 8.16.1 kernel (and `vm_compute`); the transcription; the oracle
hypotheses above; `Print Assumptions` output as listed in section 5.

## 4. Modelled and not modelled

Modelled, by file of the repo (line numbers are in the comments of the models):

| repo | model |
|---|---|
| `graph/*.py` | `GraphModel.v` |
| `mcf/utils.py`, `mcf/_ortools.py` | `McfModel.v` (exact), `FloatMcfModel.v` (rounded) |
| `workflows/emcf/_solver.py`, `utils/_cpu.py` | `EmcfModel.v` (exact), `FloatCubeModel.v` (rounded) |
| `utils/_tiling*.py`, `workflows/emcf/_tiling.py` | `TileModel.v`, `ScoreModel.v`, `ScoreFlModel.v`, `FloatModel.v`, `JsonModel.v` |
| file names of `workflows/emcf` | `NamesModel.v` |
| `workflows/emcf/_overlap.py` | `OverlapModel.v` |
| `workflows/emcf/_bulk_offset.py` | `BulkModel.v` |
| `utils/merge.py` | `DirichletModel.v` |
| `workflows/emcf/_output.py`, `_merge.py` | `MergeModel.v` (exact), `FloatMergeModel.v` (rounded, with `_overlap.py`) |
| `workflows/emcf/_settings.py`, arguments of `_cli.py` | `SettingsModel.v` |
| `io/_three_d.py` | `ThreeDModel.v` |
| `io/_slc_stack.py` | `SlcModel.v` |
| `io/_raster.py`, its use in `_output.py` | `RasterModel.v` |
| `links/*.py` | `LinksModel.v`, `LinkGridModel.v` (the grid of `scipy.optimize.brute`) |
| `distance_costs`, `centroid_costs` of `mcf/utils.py` | `CostModel.v` |
| `_unwrap_one_tile` of `workflows/emcf/_unwrap.py`, the composition in `main` of `_cli.py` | `UnwrapTileModel.v` (exact), `FloatTileModel.v` and `FloatRunModel.v` (rounded; bulk method `integer`, without the files in between) |
| `main` of `workflows/emcf/_cli.py` and the file handling of the steps it calls | `WorkflowModel.v` |

Files and crashes (`WorkflowModel.v`): a program is a tree of reads and writes
over a map from paths to contents. Creating and filling one file is one atomic
write, except the overlap file, which the code opens again for every group; a
crash is any prefix of the list of writes. Folders always exist.

Not modelled: float rounding (except where stated), memory, logging text, real
process and OS behaviour, rasterio/GDAL/HDF5 formats, qhull, argparse text
handling, casts to float32 on output. The tile theorems allow any choice of cuts
in the density tiler; `ScoreModel.v` adds the actual choice by score in real
arithmetic and `ScoreFlModel.v` the one with rounded scores (relative errors; no
overflow or underflow).

### Behaviour found to differ from what one would expect

Each is a `_refuted` theorem or an `Example`.

* One cpu: the spatial step asks for zero workers and raises (C18).
* Regular tiling loses the last row or column for some sizes, for instance 61
  rows and 7 tiles per side (C28).
* The density tiler raises ValueError when all points lie in the middle row of a
  tall image, and returns tiles without pixels when they lie in the first column
  of a wide one, however many points there are (C68).
* A phase difference of exactly half a cycle changes sign when a whole cycle is added
  to one sample (C73).
* `unwrap_cube` minimises in time and then in space. Together this need not be the
  least: 16 weighted cycles against 9 for a 4 x 4 stack (C75).
* Overlap keys are int32 and collide on large images (C33).
* `dirichlet`'s docstring promises a least residual that fixing values does not give
  (C38).
* `l2_min_cg` raises for every sparse matrix that is not symmetric, although its
  docstring describes that case: `np.dot` does not multiply sparse matrices with
  vectors. With logging and without `maxiter` it raises for symmetric ones. It and
  `l2_min` return the negative of the documented residual, and zero for an empty
  matrix (C72).
* A correction added to a tile whose level is ahead of its corrections is active
  at once (C37).
* The number of tiles at a pixel is counted in 8 bits (C39).
* Overlaps with too few pixels are not recorded, and tiles that share them may
  disagree after the adjustment (C39).
* Bulk method L2 takes one reference tile for the whole image. On an image in
  several parts the offsets of a part need not be whole cycles, and after rounding
  two tiles that agreed can end up one cycle apart (C59).
* When adjusted tiles differed by one cycle, the average is half a cycle from
  both and the tile written last decides the output (C42).
* A run stopped while the overlap file is incomplete cannot be resumed: the next
  run takes the file for complete and raises KeyError. A run stopped between the
  rasters of one interferogram never gets the remaining ones (C45).
* The command line defaults differ from those of the settings objects: 49 tiles and
  150000 links per batch against 16 and 10000 (C47).
* A NaN cost scale passes validation; 0 parallel tiles, documented as "all", is
  rejected (C47).
* `Reg3DInput` accepts a negative time axis and then slices inconsistently; its
  `get_time_slice(-1)` is empty instead of the last slice (C48);
  its coordinate arrays have one entry per sample, not per pixel (C49).
* 2D weights of `estimate_model_many` (one column per input) raise with one worker
  and are all used for every input with a pool (C54).
* Edge costs are `1 + scale / distance`, not the documented `1 + distance / scale`;
  two linked points at one position raise no error: the link gets the integer that
  numpy leaves unspecified when it casts infinity, usually -2^63 (C55).
* With NumPy 1 (which pyproject.toml allows) and complex64 samples, arrays of
  phases are wrapped in float32 and scalars in float64. A difference of half a
  cycle is then wrapped in two ways, and `flood_fill` raises on valid data (C62).
* Unwrapped gradients are stored as float32. From about 16384 rad on, rounding
  alone exceeds the closure tolerance of `flood_fill` (C62).
* `Raster(path, band=n)` for a missing band raises IndexError and leaves the dataset
  open (C64).
* `fname.replace(".tif", ...)` changes the folder too if it contains ".tif" (C32).
* The recorded median of an overlap is cut towards zero. For an even number of
  shared pixels split half and half it is not equivariant: a whole cycle added to
  a tile may not be undone (C76).
* `GridSearchLinearModel` says that its parameters stay within `ranges`. Only the
  grid does; the final Nelder-Mead search may leave it. With a real step, `stop` itself
  is not tried (C78).
* Overlap statistics are stored as int16 after a check that excludes 2^15 but not
  -2^15. Two tiles that differ by -2^15 cycles pass, two that differ by 2^15 raise
  AssertionError (C86).
* Interferograms unwrapped together need not belong to one time series: the
  temporal step makes the gradients close, the spatial step treats every
  interferogram on its own and can undo this (C79). On a 2 by 3 grid with four
  dates this happens for every optimal solver.

## 5. Axioms

Every theorem listed in `MANIFEST.json` has a `Print Assumptions` line in its
`Props_*.v` file. All of them report "Closed under the global context" unless
listed here:

* all theorems of `Props_Links.v` (C52-C54, C57), `Props_LinkGrid.v` (C78) and
  `Props_Cost.v` (C55): the
  axioms of the standard library's real numbers,
  `ClassicalDedekindReals.sig_forall_dec`, `ClassicalDedekindReals.sig_not_dec`,
  `FunctionalExtensionality.functional_extensionality_dep`;
* `C67_scores_covered`, `C68_row_refuted` and `C68_column_refuted`
  (`Props_Density.v`), and all theorems of `Props_Score.v` and `Props_ScoreFl.v` (C91): the same three;
* `C74_distance`, `C74_default_weights`, `C74_dot`, `C74_t_dot` and
  `C74_estimate` (`Props_ErrorsGraph.v`), which mention real numbers: some or all
  of the same three.
