#!/usr/bin/env python3
"""Regenerates properties.jsonl (kept as a script only for quoting convenience)."""
import json, pathlib
P = []
def p(title, statement, quantifier, why, *anchors):
    P.append(dict(id=f"C{len(P)+1:02d}", title=title, statement=statement,
                  quantifier=quantifier, why_tests_cant=why, anchors=list(anchors)))

# ---- graphs
p("Hop-3 links are exactly the pairs at most three acquisitions apart",
  "Hop3Graph(n) raises ValueError for n < 4; for n >= 4 construction succeeds and .links contains every pair (i, j) with 0 <= i < j < n and j - i <= 3, nothing else, each once, in increasing lexicographic order, so there are exactly 3n - 6 of them.",
  "every number of acquisitions n", "the test checks n = 5 only; the set of links is unbounded in n",
  "src/spurt/graph/_hop3.py:Hop3Graph", "src/spurt/graph/utils.py:order_points")
p("Hop-3 graph satisfies the planar-graph contract of the MCF solver",
  "For n >= 4 the graph is connected; every side of a listed cycle is a link; every link is a side of one or two cycles and, when two, is traversed once in each direction; the links used only once are exactly .boundary; points - links + cycles = 1; and any assignment of values to links that sums to zero around every listed cycle is the difference of a point potential.",
  "every n >= 4 and every assignment of values to links", "structural property of an unbounded family of graphs plus a for-all over fields",
  "src/spurt/graph/_hop3.py:Hop3Graph._create_cycles_and_links", "src/spurt/graph/_interface.py:PlanarGraphInterface")
p("Regular grid links are exactly the 4-neighbour pairs",
  "Reg2DGraph((h, w)).links contains each pair of horizontally or vertically adjacent pixels once, from lower to higher row-major index, and nothing else; there are 2hw - h - w of them; point k of .points is the (column, row) of the pixel with row-major index k.",
  "every grid shape h, w >= 1", "the test checks one shape and only counts",
  "src/spurt/graph/_delaunay.py:Reg2DGraph")
p("Regular grid graph satisfies the planar-graph contract of the MCF solver",
  "For h, w >= 2 the grid graph is connected, every side of a cycle is a link, every link is a side of one or two cycles with opposite directions when two, .boundary lists exactly the links used once, points - links + cycles = 1, and any values on links that sum to zero around every cell come from a point potential.",
  "every grid shape h, w >= 2 and every assignment of values to links", "structural property of an unbounded family of graphs plus a for-all over fields",
  "src/spurt/graph/_delaunay.py:Reg2DGraph._create_cycles", "src/spurt/graph/_delaunay.py:Reg2DGraph.boundary")
p("Triangulation links are the triangle sides, once each, low to high, sorted",
  "Given the triangles of a triangulation, .links of DelaunayGraph contains (a, b) iff a <= b and a, b are two corners of one triangle; no link is repeated and the links are in strictly increasing lexicographic order.",
  "every list of triangles", "every triangulation size; tests check one quadrilateral",
  "src/spurt/graph/_delaunay.py:DelaunayGraph._create_links")
p("graph_laplacian is the combinatorial Laplacian of the links",
  "graph_laplacian(g) is symmetric, its rows sum to zero, its diagonal is the node degree, off-diagonal entries are -1 for linked and 0 for unlinked pairs, and x^T L x equals the sum over links of (x_i - x_j)^2.",
  "every list of distinct links, every vector x", "for-all over graphs and vectors; no unit test of the matrix exists",
  "src/spurt/graph/utils.py:graph_laplacian")
# ---- mcf
p("phase_diff returns the representative of the difference nearest the model",
  "phase_diff(z0, z1, model) differs from arg z1 - arg z0 by an integer number of cycles and lies within half a cycle of model; it is unchanged when a whole number of cycles is added to either input (away from exact half-cycle ties), and swapping the inputs with model 0 negates it.",
  "every pair of phases and every model value", "for-all over real inputs including half-cycle ties",
  "src/spurt/mcf/utils.py:phase_diff")
p("The solver's dual graph records exactly which cycles use each link and in which direction",
  "Constructing ORMCFSolver on a graph whose cycle sides are links succeeds iff every link is a side of one or two cycles (ValueError otherwise, KeyError if a side is not a link); row i of dual_edges / dual_edge_dir lists the 1-based numbers of the cycles that use link i and +1 / -1 for traversal in increasing / decreasing direction, with 0 / 0 for a missing second cycle.",
  "every planar graph", "for-all over graphs; tests never inspect the dual arrays",
  "src/spurt/mcf/_ortools.py:ORMCFSolver._prepare_dual")
p("Residues balance and count the cycles of curl",
  "compute_residues and compute_residues_from_gradients return integers that sum to zero including the grounding node; entry c equals the oriented sum of wrapped differences around cycle c divided by 2pi, exactly, whenever the link values are differences of point phases up to whole cycles; both functions agree on the same data; residues are all zero when the gradients are differences of a potential.",
  "every valid graph and every phase data", "for-all over data and graphs",
  "src/spurt/mcf/_ortools.py:compute_residues", "src/spurt/mcf/_ortools.py:compute_residues_from_gradients")
p("Flows returned by the MCF step cancel every residue",
  "For any result the network-flow solver reports as optimal, adding 2pi times the returned flow to each link makes the link values sum to (exactly) the rounding remainder around every cycle: the integer curl of the flows is minus the residue of every cycle.",
  "every valid graph, residues, costs and every feasible solver answer", "holds for every solver answer, not for one solver run",
  "src/spurt/mcf/_ortools.py:solve_mcf", "src/spurt/mcf/_ortools.py:ORMCFSolver.residues_to_flows")
p("Returned flows are the cheapest integer correction, with cost charged forward and revcost backward",
  "Among all integer corrections k (within +-(2^31 - 1)) that cancel the residues, the returned flows minimise the sum of cost*max(k,0) + revcost*max(-k,0), revcost defaulting to cost; every returned flow fits in int32; zero residues give zero flows; unbalanced residues raise ValueError.",
  "every valid graph, residues, nonnegative costs and optimal solver answer", "optimality quantifies over all competing corrections",
  "src/spurt/mcf/_ortools.py:solve_mcf", "src/spurt/mcf/_ortools.py:residues_to_flows")
p("The flow problem built from phase data is always solvable",
  "For residues computed from point phases (or from link values congruent to point differences) on a valid graph, the min-cost-flow problem handed to the solver is balanced and feasible, so a correct solver never makes residues_to_flows raise.",
  "every valid graph and every wrapped phase data", "existence claim for every input",
  "src/spurt/mcf/_ortools.py:solve_mcf", "src/spurt/mcf/_ortools.py:unwrap_one")
p("flood_fill integrates any conservative gradient exactly",
  "On a connected graph, if gradient + 2pi*flow on every link is the difference of some point potential, flood_fill returns that potential, shifted to be 0 at point 0 (gradients mode) or arg indata[0] (points mode); it terminates on every input.",
  "every connected graph, every data and flows", "for-all over graphs and visiting orders",
  "src/spurt/mcf/utils.py:flood_fill")
p("flood_fill never returns a wrong integration silently",
  "Whenever flood_fill returns, all points were reached and on every link the difference of returned values matches gradient + 2pi*flow to within 1e-3; it raises ValueError when the graph is disconnected, lengths mismatch or mode is unknown.",
  "every input", "soundness over all inputs, including inconsistent ones",
  "src/spurt/mcf/utils.py:flood_fill")
p("unwrap_one changes the phase only by whole cycles and never fails closure",
  "For a valid planar graph (every Reg2DGraph with h, w >= 2 and every Hop3Graph are) and any correct flow solver, unwrap_one(data, cost) returns; the result at every point differs from arg(data) by an integer number of cycles, equals it at point 0, and its difference along every link is the wrapped difference plus 2pi times the returned flow.",
  "every valid graph, every phase data, every cost, every optimal solver answer", "end-to-end for-all claim through residues, flows and integration",
  "src/spurt/mcf/_ortools.py:ORMCFSolver.unwrap_one")
p("Smooth phase is recovered exactly",
  "If a true phase varies by less than half a cycle along every link, unwrap_one of its wrapped version returns the true phase up to one global whole number of cycles, with all flows zero, whatever the costs.",
  "every valid graph, every true phase satisfying the half-cycle condition", "tests check two synthetic ramps",
  "src/spurt/mcf/_ortools.py:ORMCFSolver.unwrap_one")
p("Batch flow solving is independent of worker count and completion order",
  "residues_to_flows_many returns, row by row, exactly residues_to_flows of that row, for every worker_count, every chunksize and every order in which workers deliver results.",
  "every schedule of worker completions, every batch", "schedules cannot be enumerated by tests",
  "src/spurt/mcf/_ortools.py:residues_to_flows_many", "src/spurt/mcf/_ortools.py:wrap_solve_mcf")
p("A worker setting of zero or less always resolves to a usable worker count",
  "When the caller leaves the worker count unset (None or <= 0), the number of processes actually requested is at least 1 on every machine.",
  "every machine cpu count >= 1 and every setting", "depends on the machine; CI has several cpus",
  "src/spurt/mcf/_ortools.py:residues_to_flows_many", "src/spurt/workflows/emcf/_solver.py:unwrap_gradients_in_space", "src/spurt/links/_grid_search.py:estimate_model_many")
p("get_cpu_count is at least one and honours the container quota",
  "get_cpu_count returns the smallest integer >= quota/period when both cgroup values are readable and positive, and otherwise the machine count; the result is at least 1.",
  "every cgroup content (absent, unparsable, negative, zero, positive) and machine count >= 1", "environment-dependent",
  "src/spurt/utils/_cpu.py:get_cpu_count")
# ---- emcf solver
p("Temporal unwrapping does not depend on links_per_batch",
  "unwrap_gradients_in_time processes every spatial link exactly once and returns the same array for every links_per_batch > 0.",
  "every number of links and every batch size", "boundary arithmetic for all sizes",
  "src/spurt/workflows/emcf/_solver.py:unwrap_gradients_in_time")
p("Temporal unwrapping closes every temporal cycle on every spatial link by whole-cycle corrections",
  "After unwrap_gradients_in_time, for each spatial link the values over interferograms differ from the wrapped double differences by whole cycles and sum to zero around every cycle of the temporal graph.",
  "every stack, every valid temporal graph, every correct flow solver", "for-all over data",
  "src/spurt/workflows/emcf/_solver.py:unwrap_gradients_in_time", "src/spurt/workflows/emcf/_solver.py:_ifg_spatial_gradients_from_slc")
p("unwrap_cube returns interferograms congruent to the wrapped ones, referenced to the first point",
  "unwrap_cube returns one row per interferogram; row (i, j) is 0 at point 0 and at every point p differs from the wrapped interferometric phase at p minus that at point 0 by a whole number of cycles; it never raises on valid graphs.",
  "every stack of matching size, every valid pair of graphs, every correct flow solver", "end-to-end for-all claim",
  "src/spurt/workflows/emcf/_solver.py:unwrap_cube")
p("unwrap_cube recovers smooth histories exactly",
  "If every double difference (along a spatial link, between the two dates of an interferogram) of a true phase history is below half a cycle, unwrap_cube of its wrapped SLC phases returns exactly the true interferogram phases minus their value at point 0.",
  "every true phase history satisfying the condition", "tests check three synthetic scenes",
  "src/spurt/workflows/emcf/_solver.py:unwrap_cube")
p("Spatial unwrapping is independent of the order in which workers finish",
  "unwrap_gradients_in_space assigns to row ii the result for interferogram ii under every completion order of the process pool.",
  "every completion order", "schedules cannot be enumerated by tests",
  "src/spurt/workflows/emcf/_solver.py:unwrap_gradients_in_space")
p("unwrap_cube classifies its input unambiguously",
  "With a Hop3 temporal graph, a stack with nepochs rows is treated as SLCs, one with nifgs rows as interferograms, no size is both, and every other size, non-2D input or non-leading time axis raises.",
  "every n >= 4 and every input shape", "for-all over shapes",
  "src/spurt/workflows/emcf/_solver.py:unwrap_cube")
# ---- tiling
p("get_overlaps reports every pair of tiles that share a pixel, once",
  "TileSet.get_overlaps returns pairs (i, j) with i < j, without repetition, in lexicographic order, and includes every pair of tiles that have a pixel in common; BBox.intersects is symmetric.",
  "every list of tiles", "for-all over rectangles",
  "src/spurt/utils/_tiling.py:BBox.intersects", "src/spurt/utils/_tiling.py:TileSet.get_overlaps")
p("Dilation keeps tiles inside the image and never uncovers a pixel",
  "For factor >= 0, dilate keeps the number and order of tiles, each dilated tile contains the original, stays inside the image when the original did, and larger factors give larger tiles.",
  "every tile set inside its image and every factor >= 0", "truncation behaviour for all sizes",
  "src/spurt/utils/_tiling.py:TileSet.dilate")
p("create_tiles_regular partitions the image",
  "Every pixel of the image lies in exactly one of the returned tiles.",
  "every positive shape and max_tiles >= 1", "rounding of tile borders for every size",
  "src/spurt/utils/_tiling.py:create_tiles_regular")
p("create_tiles_density partitions the image",
  "When create_tiles_density returns, every pixel of the image lies in exactly one tile, whatever the point distribution and whichever cuts its scoring picks.",
  "every point cloud inside the image, every max_tiles, every sequence of cut choices", "for-all over point clouds and recursion trees",
  "src/spurt/utils/_tiling.py:create_tiles_density", "src/spurt/utils/_tiling.py:split_rectangle")
p("The number of tiles is a perfect square not exceeding max_tiles",
  "create_tiles_regular and create_tiles_density return floor(sqrt(max_tiles))^2 tiles, so between 1 and max_tiles, and get_tiles never requests more than TilerSettings.max_tiles.",
  "every max_tiles >= 1 and every number of valid points", "for-all over integers",
  "src/spurt/utils/_tiling.py:create_tiles_regular", "src/spurt/utils/_tiling.py:create_tiles_density", "src/spurt/workflows/emcf/_tiling.py:get_tiles")
p("Tile sets survive the JSON round trip",
  "TileSet.from_json after to_json gives back the same shape and the same tiles in the same order; a tile entry whose bounds do not have exactly four numbers raises ValueError.",
  "every tile set", "round trip over all values",
  "src/spurt/utils/_tiling.py:TileSet.to_json", "src/spurt/utils/_tiling.py:TileSet.from_json")
p("Intermediate and output file names never collide",
  "Different tile numbers give different tile file names, different tile pairs give different overlap group names, and different interferograms of a stack with distinct underscore-free dates give different output file names.",
  "every pair of tile numbers, tile pairs, dates", "zero-padded formatting for all integers",
  "src/spurt/workflows/emcf/_settings.py:GeneralSettings")
# ---- merging
p("find_common_points returns exactly the shared pixels",
  "For non-negative integer coordinates, c1[ii] == c2[jj] pairwise, every pixel present in both sets appears exactly once, and nothing else appears; negative coordinates raise ValueError.",
  "every pair of point sets", "key encoding collisions for all coordinates, including int32 overflow",
  "src/spurt/utils/merge.py:find_common_points")
p("Overlap statistics are order statistics of whole-cycle differences",
  "pairwise_unwrapped_diff_deciles raises unless both inputs have the same 2D shape with at least 11 columns and all differences are (to tolerance) whole cycles; the 11 numbers per band are nondecreasing, start at the minimum and end at the maximum, and all equal k when every pixel differs by k cycles.",
  "every pair of arrays", "for-all over data",
  "src/spurt/utils/merge.py:pairwise_unwrapped_diff_deciles")
p("Integer bulk offsets align consistent tiles exactly",
  "The integer method returns offsets that are 0 for the largest tile of each connected component and minimise the total absolute disagreement with the measured pair offsets; when the measurements are consistent the reported residual is 0, the offsets are unique, and subtracting 2pi times them makes every overlapping pair agree.",
  "every tile adjacency, labelling and measured offsets, every optimal solver answer", "for-all over tile graphs and solver answers",
  "src/spurt/workflows/emcf/_bulk_offset.py:_solve_int_offsets")
p("L2 bulk offsets align consistent tiles exactly",
  "The L2 method returns offsets that are 0 for the tile with most points; when the measurements are consistent every overlapping pair agrees after subtracting 2pi times the offsets, for every least-squares minimiser the linear solver may return.",
  "every tile adjacency and consistent measurements, every minimiser", "minimiser is not unique; all must work",
  "src/spurt/workflows/emcf/_bulk_offset.py:_solve_l2_min", "src/spurt/utils/merge.py:l2_min")
p("Tile corrections accumulate predictably",
  "Through any sequence of add_correction, increment_correction, compress_corrections and reset, uw_phase is the raw phase plus the sum of the first correction_level corrections; adding a correction does not change uw_phase until it is compressed in; compressing changes it by exactly the pending correction; reset restores the raw phase.",
  "every history of operations on a tile", "history property",
  "src/spurt/workflows/emcf/_output.py:Tile")
p("Dirichlet solution keeps fixed values and obeys the maximum principle",
  "dirichlet / dirichlet_graph return exactly xf on the mask for whatever the linear solver returns; when the solver solves its system, the result is harmonic off the mask, is the unique such extension, and takes values between the minimum and maximum fixed value.",
  "every graph, mask reaching every point, fixed values", "for-all over graphs and data; the existing test checks the extrema on the mask instead of off it",
  "src/spurt/utils/merge.py:dirichlet", "src/spurt/utils/merge.py:dirichlet_graph")
p("After tile adjustment all tiles agree on every shared pixel",
  "When every pair of tiles sharing a pixel is a recorded overlap, after the adjustment loop all tiles containing a pixel have the same unwrapped phase there, for whatever the Dirichlet solver puts off the mask.",
  "every tile layout, data and solver answer", "multi-pass iteration over all layouts",
  "src/spurt/workflows/emcf/_merge.py:_adjust_tiles")
p("Tile adjustment does not depend on the order in which tiles are visited",
  "One adjustment pass gives the same tile phases for every order of visiting the tiles.",
  "every permutation of tiles", "all orders",
  "src/spurt/workflows/emcf/_merge.py:_adjust_tiles", "src/spurt/workflows/emcf/_output.py:Tile.compress_corrections")
p("Merged output is the tile phase plus whole cycles, nearest the merged model",
  "In the merged raster a pixel is NaN iff no tile contains it; otherwise it differs by a whole number of cycles from the raw unwrapped phase of a tile containing it and lies within half a cycle of the average of the corrected tiles; the diff raster is max minus min over tiles where at least two overlap and NaN elsewhere.",
  "every set of tiles, corrections and raster shape", "for-all over data",
  "src/spurt/workflows/emcf/_output.py:write_merged_band")
p("Merged output does not depend on tile order for congruent tiles",
  "If the raw phases of tiles sharing a pixel differ by whole cycles, the merged value at that pixel is the same whichever tile is written last.",
  "every order of tiles", "all orders, including exact half-cycle ties",
  "src/spurt/workflows/emcf/_output.py:write_merged_band")
p("merge_tiles writes every missing interferogram exactly once with its own band and leaves existing ones alone",
  "For every num_parallel_ifgs, the files written by merge_tiles are exactly the output names that did not exist, each from the band with the same index, and existing files are unchanged.",
  "every batch size, number of interferograms and set of already existing files", "batch boundary arithmetic combined with every subset of existing files",
  "src/spurt/workflows/emcf/_merge.py:merge_tiles")
# ---- workflow
p("Re-running a finished workflow changes nothing",
  "Running the workflow in folders where it already completed performs no write.",
  "every completed state, single or multi tile, whatever the settings of the second run", "history property over file states",
  "src/spurt/workflows/emcf/_cli.py:main", "src/spurt/workflows/emcf/_tiling.py:get_tiles", "src/spurt/workflows/emcf/_unwrap.py:unwrap_tiles")
p("A run interrupted between files can be resumed to the same result",
  "If the process stops at any point between two file writes, running the workflow again ends in the same files as an uninterrupted run.",
  "every crash point of every run", "all crash points",
  "src/spurt/workflows/emcf/_cli.py:main", "src/spurt/workflows/emcf/_overlap.py:compute_phasediff_deciles", "src/spurt/workflows/emcf/_output.py:write_merged_band")
p("Parallel tile unwrapping is independent of scheduling",
  "unwrap_tiles leaves the same tile files for every completion order and every number of parallel tiles, and does not touch tiles that already exist.",
  "every schedule, every set of already existing tile files", "schedules",
  "src/spurt/workflows/emcf/_unwrap.py:unwrap_tiles")
p("Settings objects accept exactly the documented values",
  "SolverSettings, TilerSettings and MergerSettings construct iff their documented constraints hold (known cost types, positive batch and scales, at least one tile in parallel, explicit worker counts when tiles run in parallel, ...), and raise ValueError otherwise.",
  "every combination of field values", "combinatorial input space",
  "src/spurt/workflows/emcf/_settings.py")
# ---- io
p("3D input: time slices and spatial slices are consistent views of the same cube",
  "For Reg3DInput and Irreg3DInput with any valid time axis, element s of get_time_slice(t) equals element t of get_spatial_slice(s), their lengths match .shape, and together they enumerate the cube.",
  "every array shape, time axis and index", "index arithmetic for all shapes",
  "src/spurt/io/_three_d.py:Reg3DInput", "src/spurt/io/_three_d.py:Irreg3DInput")
p("3D input coordinates have one entry per spatial point",
  "xcoords and ycoords of Reg3DInput have exactly as many entries as there are spatial points, and entry s is the column / row of spatial point s.",
  "every array shape and time axis", "index arithmetic for all shapes; no test reads the coordinates",
  "src/spurt/io/_three_d.py:Reg3DInput.xcoords", "src/spurt/io/_three_d.py:Reg3DInput.ycoords")
p("read_tile returns exactly the pixels above threshold, in row-major order, from every date",
  "read_tile(space) returns one column per pixel of the window with quality strictly above the threshold, in row-major order with window-relative coordinates; row t is the SLC of the t-th date at these pixels, all ones for the reference date; the same pixels in the same order are selected by unwrap_tiles when it builds the spatial graph.",
  "every raster content, window and threshold", "for-all over rasters",
  "src/spurt/io/_slc_stack.py:read_tile", "src/spurt/workflows/emcf/_unwrap.py:_unwrap_one_tile")
p("Scanning a phase-linked folder gives one entry per acquisition with a single reference",
  "from_phase_linked_directory either raises or returns a stack whose dates are sorted and distinct, one per file plus the reference date, where exactly the reference date has no file and each other date maps to the file named after it.",
  "every list of file names", "string handling for all names",
  "src/spurt/io/_slc_stack.py:from_phase_linked_directory")
# ---- links and costs
p("Temporal coherence is bounded, periodic and maximal for a perfect model",
  "neg_temporal_coherence lies between minus the sum of absolute weights and 0, is unchanged by whole cycles or a common constant added to the data, and equals minus the sum of the (nonnegative) weights when the model explains the data up to whole cycles and a constant.",
  "every model matrix, parameters, data and weights", "for-all over reals",
  "src/spurt/links/_common.py:neg_temporal_coherence")
p("The analytic Jacobian is the derivative of the coherence",
  "neg_temporal_coherence_with_jacobian returns the same value as neg_temporal_coherence and, wherever the coherence is nonzero, its true partial derivatives.",
  "every model matrix, parameters, data and weights", "a derivative identity at every point",
  "src/spurt/links/_common.py:neg_temporal_coherence_with_jacobian")
p("estimate_model_many gives each input its own estimate, independent of workers",
  "Column i of the result of estimate_model_many is estimate_model of column i of the data with its weights (its own column when weights are 2D), for every worker count and completion order.",
  "every batch, weights, worker count, completion order", "schedules and shapes",
  "src/spurt/links/_grid_search.py:estimate_model_many")
p("Edge costs are positive and decrease with distance",
  "distance_costs are at least 1 and nonincreasing in the distance between the two points; centroid_costs are 0 exactly on boundary links and at least 1 elsewhere, for positive scale and distinct positions.",
  "every point set, edges, scale > 0", "for-all over coordinates",
  "src/spurt/mcf/utils.py:distance_costs", "src/spurt/mcf/utils.py:centroid_costs")
# ---- settings, continued
p("GeneralSettings creates both folders or raises",
  "Constructing GeneralSettings makes the output folder and then the intermediate folder if they are missing, leaves everything else untouched, succeeds exactly when the folder containing each of them exists (the intermediate one may lie inside the output folder) and neither name is taken by a file, and doing it again changes nothing.",
  "every directory tree and pair of paths", "for-all over directory trees",
  "src/spurt/workflows/emcf/_settings.py:GeneralSettings.__post_init__")
# ---- links, continued
p("A model on the search grid is recovered",
  "The quality estimate_model returns is the temporal coherence of the parameters it returns and is at least that of every point of the search grid; if some grid point explains the data up to whole cycles and a constant and the weights are positive, the returned parameters explain the data too and the quality is the sum of the weights.",
  "every model matrix, grid, data and weights", "for-all over reals and over the optimiser's choice among equals",
  "src/spurt/links/_grid_search.py:GridSearchLinearModel", "src/spurt/links/_interface.py:LinkModelInterface")
# ---- the workflow as a whole
p("From SLC files to rasters: every output is the interferometric phase up to whole cycles",
  "After a run of the command line workflow that started from an empty intermediate folder there is one output per pair of acquisitions at most three apart; each raster written has the shape of the coherence raster, is not-a-number exactly where the coherence is not above the threshold (for pixels inside), and everywhere else differs by a whole number of cycles from the phase of the later acquisition minus that of the earlier one.",
  "every stack, tiling, settings, solver answer, worker schedule", "end-to-end composition of all steps for all inputs",
  "src/spurt/workflows/emcf/_cli.py:main", "src/spurt/workflows/emcf/_unwrap.py:_unwrap_one_tile")
p("A stack that is smooth in space and time is recovered exactly",
  "If the phases of the SLCs are those of some history, known up to whole cycles, whose true interferogram phases change by less than half a cycle along every edge of the triangulations of the tiles, then every output raster of a completed run equals the true interferogram phase plus a number of cycles that is the same at all valid pixels of tiles tied together by overlaps.",
  "every stack, history, tiling, solver meeting its contract, schedule", "end-to-end correctness of the unwrapped phase, not only its congruence",
  "src/spurt/workflows/emcf/_cli.py:main", "src/spurt/workflows/emcf/_unwrap.py:_unwrap_one_tile", "src/spurt/workflows/emcf/_bulk_offset.py:get_bulk_offsets")
p("On a smooth stack the workflow runs to its end",
  "Under the hypotheses of the exact recovery property, with every dated file on the grid of the coherence raster, tiles that can be triangulated, phases below 2^14 cycles, at least 11 points required per overlap and two overlapping tiles (or one tile), no step of the command line workflow raises and every output is written.",
  "every stack, history, tiling, solver meeting its contract, schedule", "absence of exceptions in a long composition, for all inputs",
  "src/spurt/workflows/emcf/_cli.py:main", "src/spurt/workflows/emcf/_overlap.py:compute_phasediff_deciles", "src/spurt/workflows/emcf/_merge.py:merge_tiles")
p("A triangulation serves the flow solver exactly when it has no holes",
  "For triangles that turn the same way, hang together, use every point and do not close up, the planar-graph contract of the MCF solver (every field without curl round any triangle comes from a potential) holds if and only if the number of triangles is twice the number of points minus two minus the number of sides on the outline.",
  "every list of triangles", "for-all over triangulations; Euler's formula for arbitrary cycles, not a finite graph",
  "src/spurt/graph/_delaunay.py:DelaunayGraph", "src/spurt/graph/_interface.py:PlanarGraphInterface")
p("Rounding neither changes the residues nor breaks the integration",
  "With every operation on phases rounded to its format, residues are still whole turns that sum to zero, flows cancelling them exist, and the integration accepts them and gives each point its phase plus whole cycles up to a stated error, provided the formats for arrays and scalars agree and the stated bound on path length and size of the result holds; when no difference is within rounding of half a cycle the residues and flows are those of exact arithmetic. For double precision angles the bound covers paths of a million links and results up to 1e5 radians.",
  "every planar graph, data, costs, solver meeting its contract and every rounding with bounded relative error", "error analysis for all inputs, discontinuous rounding to whole cycles inside",
  "src/spurt/mcf/utils.py:phase_diff", "src/spurt/mcf/utils.py:flood_fill", "src/spurt/mcf/_ortools.py:ORMCFSolver.compute_residues", "src/spurt/mcf/_ortools.py:ORMCFSolver.compute_residues_from_gradients")
# ---- rasters
p("Indexing a raster reads and writes exactly the selected window of its band",
  "raster[rows] and raster[rows, cols] return the selected rectangle of the raster's own band; assignment stores the converted values there and changes no other pixel, band or metadata, so the same index reads them back; np.asarray(raster) equals raster[:, :]; closed or read-only rasters and values of another shape are rejected.",
  "every dataset, band, in-range slice and value", "frame condition over all pixels and bands for every window",
  "src/spurt/io/_raster.py:Raster.__getitem__", "src/spurt/io/_raster.py:Raster.__setitem__", "src/spurt/io/_raster.py:Raster._window_from_slices")
p("Rasters are opened, created and closed as documented",
  "Opening succeeds exactly for modes r and r+ and an existing band; metadata of a new raster come from the explicit argument, else the option, else the reference raster, with one band; every raster the workflow writes has the shape given, one float32 band equal to the array, NaN nodata, format GTiff and the georeferencing of the reference; closing is idempotent and happens on every exit of a with block.",
  "every dataset, argument, reference raster and array", "precedence over all dictionaries; not a list of cases",
  "src/spurt/io/_raster.py:Raster.__init__", "src/spurt/io/_raster.py:Raster.create", "src/spurt/io/_raster.py:Raster.close", "src/spurt/workflows/emcf/_output.py:write_merged_band")
# ---- completion
p("The workflow runs to its end on every stack",
  "For SLCs with arbitrary phases, every tile whose points can be triangulated is unwrapped without an exception, and the whole command line workflow completes and writes every output, provided files lie on the grid of the coherence raster, unwrapped phases stay below 2^14 cycles, costs are within range, at least 11 points are required per overlap and two tiles overlap (or there is one tile).",
  "every stack, tiling, solver meeting its contract, schedule", "absence of exceptions without any smoothness of the data; residues, flows and offsets are arbitrary",
  "src/spurt/workflows/emcf/_cli.py:main", "src/spurt/workflows/emcf/_unwrap.py:_unwrap_one_tile", "src/spurt/workflows/emcf/_overlap.py:compute_phasediff_deciles", "src/spurt/workflows/emcf/_bulk_offset.py:get_bulk_offsets")
# ---- rounding in the merge
p("Rounding does not upset the merge of tiles",
  "With every operation on phases rounded to its format, the overlap statistics of tiles whose phases differ by whole cycles are exactly those of exact arithmetic; each merged pixel is the phase of the last tile containing it plus whole cycles up to a few units of rounding; and when the tiles show one field up to whole cycles which the bulk offsets undo, the merged band shows that field as precisely as the files do, whatever the passes of the adjustment do with the rounding errors, provided the stated bound on their number and on the gain of the Dirichlet solver holds.",
  "every set of tiles, overlap graph, solver of bounded gain and rounding with bounded relative error", "error analysis through averaging, propagation and rounding to whole cycles, for all inputs",
  "src/spurt/workflows/emcf/_merge.py:_adjust_tiles", "src/spurt/workflows/emcf/_output.py:write_merged_band", "src/spurt/workflows/emcf/_overlap.py:compute_phasediff_deciles", "src/spurt/utils/merge.py:pairwise_unwrapped_diff_deciles")
# ---- density of points
p("Density tiles share the points evenly",
  "Whatever cuts the score selects: if no row or column has more than D points and the share N/m of a tile exceeds a stated loss through ties, the density tiler returns m tiles; every tile holds at least N/m points minus that loss minus 2D, hence none holds much more; with distinct rows and columns every tile holds its share up to two points. The tile set built from a coherence image has the corresponding bounds on coherent pixels per tile.",
  "every set of points, image, number of tiles and choice of cuts", "recursion over arbitrary cuts with ties; induction over all point sets",
  "src/spurt/utils/_tiling.py:split_rectangle", "src/spurt/utils/_tiling.py:_get_splits", "src/spurt/utils/_tiling.py:create_tiles_density", "src/spurt/workflows/emcf/_tiling.py:get_tiles")
p("The density tiler returns non-empty tiles whenever there are enough points",
  "For every set of at least max_tiles points in the image, create_tiles_density returns and no tile is empty.",
  "every set of points", "false for points crowded on a line: a universal family of counterexamples under the actual scoring of cuts, not a single run",
  "src/spurt/utils/_tiling.py:_score_rectangle", "src/spurt/utils/_tiling.py:_find_best_split", "src/spurt/utils/_tiling.py:split_rectangle")
# ---- rounding in the spatio-temporal unwrapping
p("Rounding does not upset the spatio-temporal unwrapping",
  "With every operation on phases rounded to its format, the temporal step returns for every stack of images (or consistent stack of interferograms): the residues of each link are cancelled, and each gradient is within a stated error of a double difference plus whole cycles without residue in time. The spatial step then returns, or the closure check of the integration raises, which it does not for small errors; whatever is returned is the interferometric phase relative to point 0 plus whole cycles up to a stated error. In single precision with angles as input the error is at most 2.5e-5 rad per link plus 1.25e-4 rad.",
  "every pair of planar graphs, stack, costs, solver meeting its contract, schedule and rounding with bounded relative error", "error analysis through two network flow problems, for all inputs",
  "src/spurt/workflows/emcf/_solver.py:EMCFSolver.unwrap_cube", "src/spurt/workflows/emcf/_solver.py:EMCFSolver.unwrap_gradients_in_time", "src/spurt/workflows/emcf/_solver.py:EMCFSolver.unwrap_gradients_in_space")
p("A smooth stack is recovered to within the rounding error",
  "If the double differences of the true phase stay further from half a cycle than a stated margin of rounding (3.4e-5 rad in single precision), the rounded unwrapping of the wrapped stack needs no flows and no solver, and returns the true interferometric phases relative to point 0 up to a stated error (2e-5 rad per link plus 1.25e-4 rad in single precision), or the closure check of the integration raises, which it does not for paths of up to 11 links.",
  "every history and its wrapped stack of images or interferograms, pair of planar graphs, costs, solver, schedule and rounding with bounded relative error", "accuracy of the end result against the truth, for all inputs",
  "src/spurt/workflows/emcf/_solver.py:EMCFSolver.unwrap_cube", "src/spurt/mcf/utils.py:phase_diff", "src/spurt/mcf/utils.py:flood_fill")
p("The whole rounded workflow recovers a smooth stack",
  "With every operation on phases rounded to its format, in the unwrapping of the tiles, the overlap statistics, the bulk offsets (method integer) and the adjustment and merge: for a smooth history, tiles whose shared valid pixels link them and a Dirichlet solver of bounded gain, every merged interferogram the run produces equals, at every valid pixel of a tile, the true phase difference up to a stated error and whole cycles which are the same for linked tiles; other pixels are NaN. In single precision (samples in [-4, 4], phases up to 2000 rad, at most four tiles over a pixel): 2e-5 rad per link from the first point of a tile, up to 1000 links, plus 1/280 rad.",
  "every history, stack, tiling, triangulation, solver meeting its contract, schedule and rounding with bounded relative error", "end-to-end accuracy against the truth through six rounded stages, for all inputs",
  "src/spurt/workflows/emcf/_cli.py:main", "src/spurt/workflows/emcf/_unwrap.py:_unwrap_one_tile", "src/spurt/workflows/emcf/_overlap.py:compute_phasediff_deciles", "src/spurt/workflows/emcf/_bulk_offset.py:get_bulk_offsets", "src/spurt/workflows/emcf/_merge.py:merge_tiles")
# ---- least squares
p("The least squares solvers return a minimiser and its residual",
  "l2_min and l2_min_cg return, for every real matrix A, sparse or dense, and right-hand side b, an x with the least |A x - b| together with the residual; logging does not change the result.",
  "every matrix without kernel (positive definite if symmetric), right-hand side and storage", "for-all over matrices; two documented kinds of call always raise, and no existing test makes them",
  "src/spurt/utils/merge.py:l2_min", "src/spurt/utils/merge.py:l2_min_cg")
# ---- representation of the input
p("Unwrapping does not depend on how the wrapped phase is represented",
  "unwrap_cube uses its input only through the double differences along links modulo whole cycles: a constant phase offset per acquisition (or per interferogram), whole cycles added to any sample, and the choice between an SLC stack and the stack of its interferograms do not change the unwrapped phases or the exception raised, provided no double difference is exactly half a cycle. unwrap_one returns the same flows and the same phases relative to the first point; a tile of a stack has the same points and unwrapped phases.",
  "every stack, offset, graph, cost, solver (without any contract), schedule and setting", "relational property of two runs for all inputs; wrapping is discontinuous",
  "src/spurt/workflows/emcf/_solver.py:EMCFSolver.unwrap_cube", "src/spurt/workflows/emcf/_solver.py:EMCFSolver._ifg_spatial_gradients_from_slc", "src/spurt/mcf/_ortools.py:ORMCFSolver.unwrap_one", "src/spurt/workflows/emcf/_unwrap.py:_unwrap_one_tile")
# ---- exceptions
p("Each stage raises exactly the documented kind of exception, exactly on invalid input",
  "For the grids and graphs, residues, flows, integration, costs, link models, tiles, JSON files, rasters, 3D stacks, SLC folders, overlaps, bulk offsets and the merge: a call raises an exception if and only if its input violates the stated condition on shapes, indices, keys or options, and the exception then is of the stated kind (ValueError, IndexError, KeyError, TypeError, RuntimeError, AssertionError, ZeroDivisionError or FileNotFoundError). The rounded versions raise the same exceptions.",
  "every input of each function", "equivalences for all inputs: both that bad input is rejected and that good input is accepted",
  "src/spurt/mcf/utils.py:flood_fill", "src/spurt/mcf/_ortools.py:solve_mcf", "src/spurt/mcf/_ortools.py:ORMCFSolver.compute_residues", "src/spurt/links/_grid_search.py:GridSearchLinearModel", "src/spurt/io/_three_d.py:Irreg3DInput", "src/spurt/io/_slc_stack.py:SLCStackReader", "src/spurt/workflows/emcf/_output.py:Tile", "src/spurt/workflows/emcf/_bulk_offset.py:get_bulk_offsets", "src/spurt/workflows/emcf/_merge.py:_adjust_tiles")
# ---- optimality
p("The unwrapped phases are the cheapest ones, and this bounds their error",
  "unwrap_one: among all phases congruent to its input (whose differences need at most 2^31 - 1 cycles per link), the result changes the wrapped differences by the least total, weighted by cost upwards and revcost downwards. Hence against any true phases the weighted total of the wrong differences is at most twice that by which the true differences exceed the wrapped ones, and with costs of at least 1 so is 2 pi times the number of wrong links. unwrap_cube: for each link the gradients unwrapped in time are the cheapest of any history, and given them each interferogram is the cheapest one congruent to the data; against a true history the error is at most four times. The two steps together need not be the cheapest.",
  "every planar graph, input, cost, competitor or truth and every solver meeting its contract", "optimality against infinitely many competitors, in terms of phases rather than of network flows",
  "src/spurt/mcf/_ortools.py:ORMCFSolver.unwrap_one", "src/spurt/mcf/_ortools.py:solve_mcf", "src/spurt/mcf/utils.py:flood_fill", "src/spurt/workflows/emcf/_solver.py:EMCFSolver.unwrap_cube", "src/spurt/workflows/emcf/_solver.py:EMCFSolver.unwrap_gradients_in_time", "src/spurt/workflows/emcf/_solver.py:EMCFSolver.unwrap_gradients_in_space")
# ---- cycles of the tiles
p("Whole cycles added to a tile are absorbed by the merge",
  "Each tile is unwrapped on its own, so its number of cycles is arbitrary. If whole cycles are added to tiles, separately in each band, and in every recorded overlap more than half of the shared pixels agree on the relative number of cycles, consistently around loops, then the merge still succeeds; the bulk offsets take up the added cycles up to numbers that are the same for tiles linked by overlaps; the smooth model moves by that number at every pixel whose tiles are linked, the residuals stay, and the merged phase moves alike unless it is exactly half a cycle from the model. When the shared pixels are split evenly this fails.",
  "every set of tiles, added cycles, tiling, band selection, solver meeting its contract and degree of smoothing", "relational property of two runs through statistics, an integer program, interpolation and rounding",
  "src/spurt/workflows/emcf/_overlap.py:compute_phasediff_deciles", "src/spurt/workflows/emcf/_bulk_offset.py:get_bulk_offsets", "src/spurt/workflows/emcf/_merge.py:_adjust_tiles", "src/spurt/workflows/emcf/_merge.py:merge_tiles")
p("A change of a tile spreads at most one overlap per pass of the merge",
  "Changing the phases and bulk offsets of some tiles, with the same pixels, does not change whether the merge succeeds, and leaves the merged phase, the residual and the model of every pixel alone whose tiles are all more than max_degree - 1 recorded overlaps away from the changed ones; in particular tiles in other connected parts are never affected. The pixels of a neighbouring tile can change.",
  "every set of tiles and changes, tiling, band selection and linear solver", "non-interference between two runs of an iterated adjustment in which every tile reads its neighbours",
  "src/spurt/workflows/emcf/_merge.py:_adjust_tiles", "src/spurt/workflows/emcf/_merge.py:merge_tiles", "src/spurt/workflows/emcf/_output.py:write_merged_band")
# ---- accuracy of the grid search
p("The grid search is as good as its grid",
  "estimate_model tries exactly the combinations of the values of the slices (start, start + step, ... below stop, or n values from start to stop), raises ValueError if there are none, and starts the final optimisation from the best of them, the first in order among equals. If the data follow some parameters, on the grid or not, up to a common phase, whole cycles and errors of at most e, the quality is at least the cosine of e plus the phase that the distance to the grid (half a step per parameter, a whole one next to stop) can cause, times the sum of the weights. The observations off by more than u from the returned model then hold at most the share (1 - cos t) / (1 - cos u) of the weights. The parameters need not lie in the ranges.",
  "every matrix, data, nonnegative weights, ranges, true parameters, error bound and final optimiser that does not get worse", "accuracy for all parameters between the grid points and all data errors; the objective is not concave",
  "src/spurt/links/_grid_search.py:GridSearchLinearModel.estimate_model", "src/spurt/links/_grid_search.py:solve", "src/spurt/links/_common.py:neg_temporal_coherence")
# ---- one time series
p("The unwrapped interferograms belong to one time series exactly when the spatial corrections do",
  "Take data that come from one phase per date. The sum of the unwrapped interferograms around a cycle of the temporal graph is a whole number of cycles at every point. On every spatial link the unwrapped difference is a gradient T, congruent to the double difference of the data and with sum zero around every temporal cycle, plus K cycles added by the spatial step; K is zero for an interferogram whose T has no spatial residues. The unwrapped interferograms are the differences of one phase per date if and only if K sums to zero around every temporal cycle on every link. This can fail although the data are consistent, whatever optimal solver is used.",
  "every pair of planar graphs, consistent data, schedule, batch size, costs and solver meeting its contract", "global structure of a two-step optimisation in terms of its result; the failure holds for all solvers",
  "src/spurt/workflows/emcf/_solver.py:EMCFSolver.unwrap_cube", "src/spurt/workflows/emcf/_solver.py:EMCFSolver.unwrap_gradients_in_time", "src/spurt/workflows/emcf/_solver.py:EMCFSolver.unwrap_gradients_in_space", "src/spurt/mcf/_ortools.py:ORMCFSolver.residues_to_flows")
# ---- rounding on arbitrary data
p("With rounding the output stays congruent to the measured phase, for every stack",
  "Whatever the samples, with floating point arithmetic every value of the output is, up to whole cycles and a stated error, the difference of the two samples of its interferogram at that pixel, and pixels outside the tiles or not valid have no value. Nothing is asked of the smoothness of the phase, of the optimality or feasibility of the flows (only that no arc carries more than K cycles), of the bulk offsets or of the linear solver of the merge. The same holds of the cube solver and of the file of each tile. In the formats used, for phases up to 1000 rad and 10 cycles per arc, the error is at most 0.003 plus 0.00003 per link between a point and the first one of its tile.",
  "every stack, tiling, network solver with bounded flows, bulk offsets, linear solver, schedule and rounding with the stated accuracy", "error bound through every rounded step of the workflow without any assumption on the data or the solvers",
  "src/spurt/workflows/emcf/_solver.py:EMCFSolver.unwrap_cube", "src/spurt/workflows/emcf/_unwrap.py:_unwrap_one_tile", "src/spurt/workflows/emcf/_merge.py:merge_tiles", "src/spurt/workflows/emcf/_output.py:write_merged_band", "src/spurt/mcf/utils.py:flood_fill")
# ---- what the result depends on
p("Samples at masked pixels never matter, and each step looks only at its own part of the data",
  "Two stacks with the same dates and files that select the same pixels and have the same samples at the selected pixels, whatever their coherence values and whatever the samples elsewhere, lead to the same run of the whole workflow from any state of the folders: the same files with the same contents in the same order, or the same exception. The file of a tile depends only on the samples at the selected pixels of the tile, with and without rounding. In the solver the gradients of a link depend only on the samples of its two points, and an interferogram only on its own gradients.",
  "every pair of stacks, tiling, settings, solver and prior contents of the folders", "relational property of two runs for all inputs",
  "src/spurt/io/_slc_stack.py:SLCStackReader.read_tile", "src/spurt/workflows/emcf/_unwrap.py:_unwrap_one_tile", "src/spurt/workflows/emcf/_cli.py:main", "src/spurt/workflows/emcf/_solver.py:EMCFSolver.unwrap_gradients_in_time", "src/spurt/workflows/emcf/_solver.py:EMCFSolver.unwrap_gradients_in_space")
# ---- unwrapping again
p("Unwrapping what is already unwrapped changes nothing",
  "Given the unwrapped phases of one interferogram in place of the wrapped ones, the solver returns them again, from the same flows. Given the unwrapped interferograms of a stack, of acquisitions or of interferograms, as a stack of interferograms, unwrap_cube returns them again, value for value. No double difference of the data along a link may be exactly half a cycle, and there must not be as many interferograms as dates.",
  "every pair of planar graphs, stack, cost, schedule, batch size and sound solver", "relation between two runs of a solver that only sees residues",
  "src/spurt/mcf/_ortools.py:ORMCFSolver.unwrap_one", "src/spurt/workflows/emcf/_solver.py:EMCFSolver.unwrap_cube")
# ---- the rounded run ends
p("With rounding the workflow still runs to its end on a smooth stack",
  "If no interferogram changes by half a cycle, less a margin, along a side of a triangle, every tile can be triangulated, the solvers of the bulk offsets and of the merge answer, and the tiles are not too deep for the tolerance 0.001 of flood_fill, then with floating point arithmetic every tile is unwrapped and every interferogram is merged: no closure check, no overlap statistic and no step of the merge raises. In the formats used this holds for tiles with at most 11 sides from their first point to any other.",
  "every smooth stack, tiling, solver meeting its contract, schedule and rounding with the stated accuracy", "absence of exceptions through every rounded step of the workflow",
  "src/spurt/mcf/utils.py:flood_fill", "src/spurt/workflows/emcf/_unwrap.py:_unwrap_one_tile", "src/spurt/workflows/emcf/_overlap.py:compute_phasediff_deciles", "src/spurt/workflows/emcf/_bulk_offset.py:get_bulk_offsets", "src/spurt/workflows/emcf/_merge.py:merge_tiles")
# ---- small changes
p("Small changes of the phases pass through to the result unchanged",
  "Let something be added to the phase of every date at every point. If, for every interferogram, it makes no wrapped difference along a link jump by a cycle, then unwrap_one takes the same flows and its result changes by exactly what was added, and every interferogram of unwrap_cube changes by exactly the difference of what was added to its two dates, counted from the first point. If also the wrapped phase at the first pixel of no tile jumps, every tile file changes by exactly that difference, the overlap statistics are the same, and in the merge the smooth model and the merged phase change by exactly that difference at every pixel while the residual is unchanged. If the program ends on the first stack it ends on the second one and writes the same output files, changed by that difference.",
  "every stack, change without jumps, planar graph, tiling, cost, schedule, batch size, solver and settings of the merge", "exact relation between the outputs of two runs, through the whole workflow",
  "src/spurt/mcf/_ortools.py:ORMCFSolver.unwrap_one", "src/spurt/workflows/emcf/_solver.py:EMCFSolver.unwrap_cube", "src/spurt/workflows/emcf/_unwrap.py:_unwrap_one_tile", "src/spurt/workflows/emcf/_overlap.py:compute_phasediff_deciles", "src/spurt/workflows/emcf/_merge.py:merge_tiles")
# ---- number formats
p("Rounding follows IEEE 754, and whatever is stored as float32 is a float32",
  "The rounded arithmetic takes, for every real result, the nearest number with 24 or 53 significant bits and, between two that are equally near, the one with the even significand; this determines it. With it, the gradients kept between the two steps of the cube solver, the unwrapped phases and offsets in the file of a tile, the phases read back for the overlaps, the differences in cycles, the phases and corrections of the tiles before, between and after the passes of the adjustment and the pixels of the output are all numbers with 24 significant bits, so that writing and reading them as float32 loses nothing.",
  "every stack, graph, tiling, bulk offset, solver, schedule and settings", "statement about every stored value of every run",
  "src/spurt/workflows/emcf/_solver.py:EMCFSolver.unwrap_cube", "src/spurt/workflows/emcf/_unwrap.py:_unwrap_one_tile", "src/spurt/workflows/emcf/_overlap.py:_load_uw_tile", "src/spurt/utils/merge.py:pairwise_unwrapped_diff_deciles", "src/spurt/workflows/emcf/_merge.py:_adjust_tiles", "src/spurt/workflows/emcf/_output.py:write_merged_band")
# ---- conjugation
p("Negating all phases negates all results",
  "Let every phase be replaced by its negative, as for complex conjugate samples. If the network solver breaks ties the other way round, unwrap_one returns the negated flows and phases (with the costs of the two directions exchanged), every interferogram of unwrap_cube and every tile file is negated, and errors are the same. The overlap statistics of a band are negated and read backwards, unless a difference is exactly -2^15 cycles, which only one sign of a 16-bit integer holds. The bulk offsets of both methods are negated and their residuals are the same. In the merge the smooth model and the merged phase are negated at every pixel and the spread of the tiles is unchanged. If the program ends on one stack it ends on the other and writes the negated output files. Solvers that break ties the other way round exist and are as good as the given ones.",
  "every stack, planar graph, tiling, cost, schedule, batch size, solver and settings of the merge", "exact relation between the outputs of two runs, through the whole workflow",
  "src/spurt/mcf/_ortools.py:ORMCFSolver.unwrap_one", "src/spurt/workflows/emcf/_solver.py:EMCFSolver.unwrap_cube", "src/spurt/workflows/emcf/_unwrap.py:_unwrap_one_tile", "src/spurt/utils/merge.py:pairwise_unwrapped_diff_deciles", "src/spurt/workflows/emcf/_bulk_offset.py:get_bulk_offsets", "src/spurt/workflows/emcf/_merge.py:merge_tiles")
# ---- number of tiles
p("The number of tiles fits the number of coherent pixels",
  "When tiles are used, get_tiles returns q * q tiles, where q is within half of the square root of coherent pixels per target_points_per_tile (and 2^-10 for the rounding of the quotient and the root), at least one and at most max_tiles. So several tiles have on average more than half of the target number of pixels, a number of tiles well below max_tiles leaves less than 2.3 times the target per tile, and up to twice the target gives one tile. The tiles are made from every k-th coherent pixel, which gives at least target_points_for_generation points, if there are so many, and less than twice that number.",
  "every image, settings accepted by TilerSettings and choice of cuts; up to 2^32 times the target number of pixels", "numeric relation between settings, image and result, with float rounding",
  "src/spurt/workflows/emcf/_tiling.py:get_tiles", "src/spurt/utils/_tiling.py:create_tiles_density")
# ---- reference date
p("Only the interferograms of a stack matter, not its reference date",
  "Let two stacks have the same dates and the same valid pixels, and the same phase between any two dates up to whole cycles, whichever date is the reference of each. If no interferogram is exactly half a cycle at the first pixel of a tile, nor on a side of a triangle, every tile is unwrapped to the same phases or raises the same exception, the overlap statistics are the same, and the merged phase, the residual and the smooth model of every pixel are the same. If the program ends on one of them it ends on the other and writes output files with the same values. With exactly half a cycle they can be a cycle apart.",
  "every pair of stacks with the same interferograms, tiling, cost, schedule, batch size, solver and settings of the merge", "exact relation between the outputs of two runs, through the whole workflow",
  "src/spurt/io/_slc_stack.py:SLCStackReader.read_tile", "src/spurt/workflows/emcf/_unwrap.py:_unwrap_one_tile", "src/spurt/workflows/emcf/_overlap.py:compute_phasediff_deciles", "src/spurt/workflows/emcf/_merge.py:merge_tiles")
# ---- linked tiles
p("Dilation links all tiles, and connected coherent pixels come out with one constant",
  "Each edge of a dilated tile moves by at least the whole part of factor times size, or to the border of the image, and by at most that number rounded up; the lower edges move by at least one line. So, with a dilation factor of at least 2^-20, the tiles that get_tiles returns are linked: along every walk from pixel to neighbouring pixel the tiles overlap in pixels of the walk's kind, for instance coherent ones, and get_overlaps reports these pairs. On a smooth stack, if tiles that have a coherent pixel in common are linked by overlaps with enough of them, every output is the true phase plus one whole number of cycles on each connected set of coherent pixels, across all tiles. A positive factor that is lost in rounding links nothing.",
  "every image up to 2^32 pixels, tiler settings with a dilation factor of at least 2^-20, choice of cuts, smooth stack and solvers meeting their contracts", "connectivity for all images and choices of cuts, with float rounding, and its consequence for the whole workflow",
  "src/spurt/utils/_tiling.py:TileSet.dilate", "src/spurt/utils/_tiling.py:TileSet.get_overlaps", "src/spurt/workflows/emcf/_tiling.py:get_tiles", "src/spurt/workflows/emcf/_cli.py:main")
# ---- constants
p("A constant phase added to an acquisition only adds a constant",
  "Let a constant of any size be added to the phase of each date, up to whole cycles, and let no difference of an interferogram on a side of a triangle be exactly an odd number of half cycles. Then every tile gives the same outcome and the same pixels, and each of its interferograms changes by the difference of the two constants plus a whole number of cycles for the tile, which differs by at most two between tiles. If in every recorded overlap most pixels agree on the relative number of cycles, without contradiction around loops, the merge removes these numbers: the smooth model and the merged phase change by the difference of the constants plus a number of cycles that is the same for all tiles linked by overlaps, and the spread of the tiles is unchanged. Only pixels exactly half a cycle away from the smooth model may take another number of cycles.",
  "every pair of stacks that differ by constants, tiling, cost, schedule, batch size, solver and settings of the merge", "exact relation between the outputs of two runs, through tiles, bulk offsets and merge",
  "src/spurt/workflows/emcf/_unwrap.py:_unwrap_one_tile", "src/spurt/workflows/emcf/_solver.py:EMCFSolver.unwrap_cube", "src/spurt/workflows/emcf/_bulk_offset.py:get_bulk_offsets", "src/spurt/workflows/emcf/_merge.py:merge_tiles")
# ---- scores
p("The density tiler takes the cheapest of its cuts",
  "The score of a rectangle is the least diagonal over all real ways to arrange its m pieces from 1 to m across, and it is not a number exactly for a rectangle without extent. If the bounds have extent in both directions, the cut chosen by split_rectangle costs no more than any candidate in either direction; of equally cheap cuts it takes the first, rows before columns. If the bounds are flat in one direction and the points are different, the other direction is cut at its first cut. In general a cut on the border makes the score not a number: it is then taken if the rows are flat, and the flat direction is cut if the columns are. The transposed points and bounds are cut at the same place in the other direction, unless the best cuts of both directions cost the same. All tiles of create_tiles_density come from such choices, from the whole image down. With every operation of the score rounded by a relative error of at most u, the chosen cut still costs at most (1+u)^5/(1-u)^7 times the cheapest.",
  "every set of points inside the bounds, every number of tiles from 2 to the number of points", "optimality over all candidate cuts, with the behaviour of nan in argmin and in the comparison",
  "src/spurt/utils/_tiling.py:_score_rectangle", "src/spurt/utils/_tiling.py:_find_best_split", "src/spurt/utils/_tiling.py:_get_splits", "src/spurt/utils/_tiling.py:split_rectangle")
if __name__ == "__main__":
    out = pathlib.Path(__file__).resolve().parent.parent / "properties.jsonl"
    out.write_text("".join(json.dumps(x) + "\n" for x in P))
    print(len(P))
