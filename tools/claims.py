c("C01", "proved", "C01_hop3_links")
c("C02", "proved", "C02_hop3_planar", "planar (GraphSpec.v) collects the contract; pl_once + pl_side + pl_used give 'one or two cycles, opposite directions when two'")
c("C03", "proved", "C03_reg2d_links")
c("C04", "proved", "C04_reg2d_planar")
c("C05", "proved", "C05_triangulation_links", "scipy's triangles are an arbitrary list")
c("C06", "proved", "C06_laplacian", "for non-empty link lists; csr_matrix raises on an empty one (modelled as ValueError)")
c("C07", "proved", "C07_phase_diff C07_tie_refuted", "exact rational phases; C07_tie_refuted shows the exclusion of exact half-cycle ties is necessary")
c("C08", "proved", "C08_dual C08_uses C08_planar")
c("C09", "proved", "C09_residues_points C09_residues_gradients C09_residues_agree", "exact rational arithmetic (the float32 accumulator of compute_residues_from_gradients is not modelled)")
c("C10", "proved", "C10_flows_cancel", "ortools is the oracle smcf with hypothesis smcf_sound")
c("C11", "proved", "C11_flows_optimal C11_zero_residues C11_unbalanced", "ortools oracle, smcf_sound")
c("C12", "proved", "C12_feasible C12_feasible_gradients", "no bound on the data: a correction of at most one cycle per link always exists")
c("C13", "proved", "C13_flood_exact C13_terminates")
c("C14", "proved", "C14_flood_sound C14_flood_rejects")
c("C15", "proved", "C15_unwrap_returns C15_unwrap_sound C15_covers planar_solver_exists", "exact rational arithmetic; ortools oracle sound and complete")
c("C16", "proved", "C16_smooth")
c("C17", "proved", "C17_rows C17_schedule", "completion order = arbitrary permutation of the submitted tasks; chunksize only influences that order")
c("C18", "partial", "C18_time_workers C18_space_workers_refuted C18_space_workers_partial", "holds for residues_to_flows_many and estimate_model_many; false for unwrap_gradients_in_space on a single-cpu machine (get_cpu_count()-1 = 0 workers, ProcessPoolExecutor raises)")
c("C19", "proved", "C19_cpu_count", "math.ceil of the float quotient is taken as the exact ceiling (they agree for quotas below 2^53)")
c("C20", "proved", "C20_batches C20_per_link", "same outcome, arrays and exceptions, for data rows wide enough for the graph")
c("C21", "proved", "C21_time C21_slc_consistent", "exact arithmetic; for interferogram input the sums vanish when the interferograms close modulo 2*pi, otherwise stay within half a cycle")
c("C22", "proved", "C22_sound C22_returns C22_returns_default", "congruence for every input whenever a result is returned; never raising is proved for consistent stacks (every SLC stack) with temporal costs >= 1, total cost below 2^30 and at least one spatial worker")
c("C23", "proved", "C23_smooth", "no assumption on the flow solver")
c("C24", "proved", "C24_space", "completion order = arbitrary permutation")
c("C25", "proved", "C25_classify")
c("C26", "proved", "C26_overlaps C26_symmetric C26_reported C26_only_shared_pixels_refuted", "also shown: tiles that merely touch are reported")
c("C27", "proved", "C27_dilate C27_monotone C27_cover", "float64 rounding included (image sides up to 2^53)")
c("C28", "partial", "C28_partition_refuted C28_cover_partial C28_partition_iff_partial C28_exact_partial C28_divisible_partial C28_bad_shape_refuted C28_count", "false as stated: float64 rounding of k*(n/k) can drop the last row or column (61 rows, 7 tiles per side); everything else is covered exactly once, and it is a partition whenever n/k is a double")
c("C29", "proved", "C29_partition C29_terminates C29_few_points_raise", "the cut selection is arbitrary within range(1, m)")
c("C30", "proved", "C30_count_regular C30_count_density C30_request C30_get_tiles", "int(np.sqrt(n)) is the integer square root")
c("C31", "proved", "C31_roundtrip C31_bad_bounds C31_keys", "json text modelled for integers, arrays and objects")
c("C32", "proved", "C32_tile_files C32_groups C32_tmp_files C32_output_names C32_output_files C32_replace C32_replace_whole_path_refuted", "the _diff/_model names need a path without '.tif' in it")
c("C33", "partial", "C33_common_points_partial C33_negative C33_empty C33_int32_refuted C33_recorded_overlap C33_recorded_iff",
  "Exact set of shared pixels for all coordinates whose row-major keys fit the integer type of the arrays. Refuted beyond: int32 keys wrap around and collide (C33_int32_refuted). C33_recorded_iff: a pair is recorded exactly when it shares enough pixels.")
c("C34", "proved", "C34_bad_input C34_whole_cycles C34_deciles C34_median_majority C34_recorded_stats C34_recorded_median",
  "Which arrays are rejected, and the eleven numbers as order statistics of the cycle counts.")
c("C35", "proved", "C35_offsets C35_optimal C35_total C35_consistent C35_aligned C35_file C35_tile_size",
  "For every optimal answer of the MIP solver. Optimality over all integer offsets when the measured offsets sum to less than 2^30 in absolute value; over all offsets in the solver's range otherwise.")
c("C36", "proved", "C36_offsets C36_total C36_no_overlaps C36_aligned C36_file C36_islands_solution",
  "For every least-squares minimiser. Without any overlap the function raises. C36_islands_solution: on two separate pairs of tiles the minimum-norm solution need not be whole cycles.")
c("C38", "proved", "C38_dirichlet_fixed C38_graph_fixed C38_graph_harmonic C38_dirichlet_harmonic C38_minimises_refuted",
  "Fixed values kept for any answer of the linear solver; balance, range and uniqueness when it solves its system. The docstring's stronger promise (least residual over all equations) is refuted separately.")
c("C37", "partial", "C37_phase C37_add_partial C37_add_refuted C37_add_usable C37_increment C37_compress C37_compress_error C37_reset C37_reset_band_index C37_history C37_merge_history",
  "All operations described exactly, over every history. The clause 'adding does not change uw_phase' is false when the level exceeds the number of corrections (C37_add_refuted); C37_add_partial says exactly by how much it changes.")
c("C39", "partial", "C39_agree_partial C39_agree_small_partial C39_count_refuted C39_fixed C39_fixed_recorded C39_skipped_refuted C39_pass C39_total C41_batch",
  "Proved for any solver answers whenever there are fewer than 256 tiles, or the counted degree is at least two. False beyond: the degree is counted in 8 bits (C39_count_refuted: 256 tiles on one pixel are not adjusted at all), and when an overlap is too small to be recorded (C39_skipped_refuted).")
c("C40", "proved", "C40_order C40_all_passes", "Any order, in each pass separately.")
c("C41", "proved", "C41_merged C41_diff C41_total C41_single C41_batch", "C41_batch goes from the tile files to the rasters of a batch.")
c("C42", "partial", "C42_order_partial C42_tie_refuted",
  "Proved unless a raw phase is exactly half a cycle from the average; model and diff are order independent always. At a tie the last tile written decides (C42_tie_refuted), which is what happens when two adjusted tiles differed by one cycle.")
c("C43", "proved", "C43_exact C43_files C43_own_band C43_sound",
  "Success and written files characterised exactly, for every batch size and set of existing files, given tile and overlap files that fit together (which C43_sound derives for runs from an empty folder).")
c("C44", "proved", "C44_quiet C44_again", "No write whatever the settings, solvers and schedule of the second run.")
c("C45", "partial", "C45_resume_partial C45_crash_partial C45_single C45_overlap_refuted C45_raster_refuted",
  "Proved for every crash point with one tile, and for every crash point outside the overlap file otherwise, up to the difference and model rasters of at most one interferogram. Refuted for the rest: an incomplete overlap file makes every later run fail, and a missing difference raster is never redone.")
c("C46", "proved", "C46_invalid C46_files C46_schedule", "Including runs in which some tiles fail.")

c("C47", "partial", "C47_solver_exact C47_solver_partial C47_nan_refuted C47_zero_tiles_refuted C47_tiler C47_merger C47_solver_usable C47_solver_reads C47_defaults C47_cli C47_cli_defaults",
  "Accepted values characterised exactly for all four settings classes and the command line. Two deviations from the documentation are proved: a NaN cost scale is accepted, and 0 parallel tiles (documented as 'all') is rejected.")
c("C48", "proved", "C48_reg_init C48_reg C48_reg_consistent C48_reg_enumerates C48_reg_out_of_range C48_reg_negative_time C48_negative_axis_refuted C48_irreg_init C48_irreg",
  "For time_dim in 0, 1, 2. A negative time_dim is accepted by the constructor but gives inconsistent slices (C48_negative_axis_refuted).")
c("C49", "partial", "C49_coords_partial C49_length_iff C49_coords_refuted C49_irreg",
  "Proved for Irreg3DInput and for Reg3DInput with one epoch. With more epochs the coordinate arrays of Reg3DInput are too long (they count every sample): C49_length_iff, C49_coords_refuted.")
c("C50", "proved", "C50_read_tile C50_reads C50_bad_grid C50_same_pixels C50_valid_count", "Rasters as lists of rows; windows with nonnegative bounds.")
c("C51", "proved", "C51_phase_linked C51_accepts C51_slc C51_slc_accepts", "Including the exact set of accepted folders, and the same for folders of SLCs.")
c("C56", "proved", "C56_folders C56_again")

c("C52", "proved", "C52_value C52_bounds C52_periodic C52_perfect C52_perfect_only", "Exact reals; scalar, per-observation and 2D weights.")
c("C53", "proved", "C53_jacobian C53_each_parameter", "Every directional derivative, hence every partial one.")
c("C54", "partial", "C54_columns_partial C54_workers_partial C54_bad_shape C54_per_input_serial_refuted C54_per_input_pool_refuted",
  "Proved for weights common to all inputs. Refuted for 2D weights: with one worker the call raises, with a pool every input is estimated with the weights of all inputs.")
c("C55", "proved", "C55_distance C55_monotone C55_coincident C55_coincident_refuted C55_centroid C55_dual_edges C55_triangles C55_hop3 C55_hop3_centroid C55_unwraps C55_docstring_refuted",
  "Exact reals. C55_docstring_refuted: the documented formula 1 + distance / scale is not the one computed (1 + scale / distance). C55_coincident: two linked points at one position raise no error; the link gets the integer that numpy leaves unspecified when it casts infinity (C55_coincident_refuted: usually -2^63).")
c("C57", "proved", "C57_quality C57_recovers", "scipy's brute is a parameter: it returns a point at least as good as every grid point, with its value.")

c("C58", "proved", "C58_tile C58_workflow",
  "Whatever optimal flows the solver returns, given a planar triangulation of the pixels of each tile. Phases exact; the casts to int32 cost and float32 output are not modelled.")

c("C59", "proved", "C59_tile C59_workflow C59_islands_refuted",
  "Contracts: an optimal flow, a planar triangulation; for the integer method an optimal integer solution and true connected components, for L2 a least-squares minimiser and tiles that are all tied together (L2 has one reference tile for the image). True phases below 2^29 cycles. Phases exact. C59_islands_refuted: without that, L2 on an image in two parts can leave a jump of one cycle between two tiles that agreed.")

c("C60", "proved", "C60_tile C60_workflow",
  "Beside the contracts of C59: an integer solver that finds a solution when there is one, and an incomplete factorisation that succeeds on every matrix that is not empty. A tile wholly covered by its neighbours leaves an empty matrix; then the factorisation must accept that too.")

c("C61", "proved", "C61_euler C61_triangulation C61_triangulator",
  "The contract of the triangulator that C10-C16 and C58-C60 assume, reduced to clauses that can be checked by counting. C61_euler is for cycles of any length.")

c("C62", "proved", "C62_formats C62_points C62_off_tie C62_gradients C62_binary64 C62_mixed_refuted C62_float32_gradients_refuted",
  "Overflow, underflow and NaN are not represented. The _refuted theorems show that the provisos are needed: float32 residues with float64 integration (NumPy 1, complex64 samples) reject valid data at half a cycle, and gradients of 16384 rad stored as float32 no longer close.")

c("C63", "proved", "C63_getitem C63_setitem C63_read_back C63_array C63_rejects",
  "rasterio is external: a dataset is a record of bands and metadata, and Window.from_slices is assumed to select the given bounds when they are inside the raster. Negative or out-of-range bounds and slice steps are not modelled.")

c("C64", "proved", "C64_open C64_open_errors C64_create C64_output C64_output_options C64_output_shape C64_close C64_band_properties C64_open_closes_on_error_refuted",
  "rasterio.open is assumed to create what its options describe. The _refuted theorem: after the IndexError for a missing band the dataset stays open.")

c("C65", "proved", "C65_tile C65_workflow",
  "C60 without smoothness. Solvers, triangulation and scheduling are oracles with contracts; the witness runs an executable flow solver (CertSolver.v, proved to meet the contract) on a stack with residues.")

c("C66", "proved", "C66_unrounded C66_overlaps C66_congruent C66_aligned C66_total C66_harmonic",
  "One band, tracked by all tiles. Overflow, underflow and NaN are not represented. The Dirichlet solver (triangulation, factorisation, conjugate gradients) is an oracle that amplifies by at most K; C66_harmonic: exact solutions have K = 1.")

c("C67", "proved", "C67_lower C67_upper C67_sum C67_total C67_distinct C67_get_tiles C67_scores_covered",
  "For any choice of cut index in range; C67_scores_covered: the choice by score is one of them. Points are integer pixels, cuts exact halves.")

c("C68", "partial", "C68_row_refuted C68_column_refuted C68_nonempty_partial",
  "False: all points in the middle row of a tall image make the tiler raise ValueError, all points in the first column of a wide image give three tiles without pixels (scores in real arithmetic). The partial theorem: true when no line holds too many points.")

c("C69", "proved", "C69_cube C69_formats C69_single",
  "Roundings with bounded relative error; overflow, underflow and NaN are not represented. Acceptance by the closure check is proved for paths of at most 9 links in single precision; beyond, the error bound holds for what is returned.")

c("C70", "proved", "C70_smooth C70_single",
  "Roundings with bounded relative error; overflow, underflow and NaN are not represented. The solver is arbitrary: it is not called.")

c("C71", "proved", "C71_run C71_single",
  "Roundings with bounded relative error; overflow, underflow and NaN are not represented. States the accuracy of what a run returns; whether the rounded run returns is a separate matter. Bulk method integer; the files between the steps are not modelled here (C58 to C60 have them).")

c("C72", "partial", "C72_cg_partial C72_cg_returns C72_cg_error C72_l2_partial C72_l2_returns C72_l2_bulk C72_sparse_refuted C72_logging_refuted C72_empty_refuted C72_sign_refuted",
  "Proved for what is returned (the residual is b - A x, not A x - b as documented), with an exact condition for returning. False: a sparse matrix that is not symmetric always raises (np.dot on a sparse matrix), logging without maxiter raises for symmetric matrices, and an empty matrix gives residual zero whatever b is.")

c("C73", "proved", "C73_cube C73_offsets C73_ifg_offsets C73_slc_or_ifg C73_one C73_tile C73_half_cycle_refuted",
  "Exact arithmetic. The _refuted theorem shows that the condition is needed: a difference of exactly half a cycle changes sign when a whole cycle is added to one sample, because rint rounds half to even.")

c("C74", "proved", "C74_bands C74_compress C74_band C74_single C74_overlap_map C74_common C74_degree C74_start C74_neighbour C74_adjust C74_smooth C74_dirichlet C74_l2_min C74_argmax C74_pinned C74_integer C74_l2 C74_bulk C74_grid C74_density C74_boundary C74_laplacian C74_max_point C74_residues C74_flow C74_index C74_distance C74_cost C74_workers C74_link_model C74_default_weights C74_dot C74_t_dot C74_bcast C74_estimate C74_bounds C74_regular C74_splits C74_empty_image C74_loads C74_key C74_ints C74_read C74_write C74_dtype C74_nth C74_unravel C74_getitem C74_irregular C74_slc_folder C74_select C74_read_date C74_mkdir C74_output_names C74_float_residues C74_float_gradients C74_float_flood C74_float_workers C74_float_single C74_float_start C74_float_neighbour C74_float_band C74_float_deciles C74_float_adjust C74_float_dirichlet",
  "Equivalences where the call has a single cause; for the steps that pass on what a part raises (C74_adjust, C74_bulk, C74_workers and their rounded versions) the causes of the step itself are shown to raise. Errors of the libraries on values that are not modelled (wrong Python types, memory, the disk) are outside.")

c("C75", "proved", "C75_one C75_one_error C75_cube C75_cube_error C75_joint_refuted",
  "Exact arithmetic. The wrapped differences w are those of the model and are shown to lie in [-half, half] and to be congruent to the differences of the input. The _refuted theorem records that the two steps of unwrap_cube together are not the cheapest: for the given data every solver needs 16 weighted cycles where the true history needs 9.")

c("C76", "proved", "C76_absorbed C76_split_refuted",
  "Exact arithmetic. The solver of the Dirichlet problem is any function that depends on the values of the right-hand side only. The _refuted theorem shows that a majority is needed: the median of an even split is cut towards zero.")

c("C77", "proved", "C77_local C77_components C77_neighbour_refuted",
  "Exact arithmetic; given the bulk offsets. The solver of the Dirichlet problem is any function that depends on the values of the right-hand side only. The _refuted theorem shows that the neighbours of a changed tile are not exempt.")

c("C78", "proved", "C78_points C78_search C78_start C78_returns C78_empty C78_step_distance C78_count_distance C78_accuracy C78_fit C78_stays_in_range_refuted",
  "Exact arithmetic. scipy's brute is modelled down to its points, their order and argmin; fmin is any function that returns the value at its result, no worse than at its start. The _refuted theorem shows that the bounds in the docstring of the class are not enforced on the result.")

c("C79", "proved", "C79_whole C79_series C79_series_refuted",
  "Exact arithmetic. The _refuted theorem shows, for constant costs and every sound solver, that the interferograms need not belong to one time series.")

c("C80", "proved", "C80_cube C80_tile C80_run C80_single",
  "Rounding as in C69 to C71: relative errors, no overflow or subnormal numbers. The bounds on the values in the files and of the output are hypotheses, as the error of a floating point number grows with its size.")

c("C81", "proved", "C81_links C81_ifgs C81_tile C81_workflow", "Exact arithmetic; C81_tile also with rounding.")

c("C82", "proved", "C82_one C82_cube", "Exact arithmetic.")

c("C83", "proved", "C83_tile C83_run C83_single",
  "Rounding as in C69 to C71. Bulk method integer. The network solver is arbitrary: it is not called. The bound on the depth of a tile is what the worst case of the rounding errors allows.")

c("C84", "proved", "C84_one C84_cube C84_tile C84_merge C84_stack C84_run",
  "Exact arithmetic. The iterative solver of the merge must depend on the values of the right-hand side only. C84_stack goes from the stack to the batches of the merge; the bulk offsets are the same because they depend on the overlap statistics only. C84_run is about whole runs of the program from empty folders.")

c("C85", "proved", "C85_rounding C85_unique C85_exact C85_cube C85_tile C85_overlap C85_check C85_tolerance C85_adjust C85_run C85_stored",
  "Exponents are not limited: no overflow and no subnormal numbers. complex64 samples. The solver of the merge is arbitrary, its answers are rounded when stored.")

c("C86", "proved", "C86_mirror C86_turn C86_one C86_cube C86_tile C86_stats C86_bulk C86_merge C86_stack C86_run C86_stats_refuted",
  "Exact arithmetic. The network solver and the integer solver of the second run break ties the other way round; C86_mirror and C86_turn show that such solvers exist and are as good as the first. The linear solvers must be odd in the right-hand side. C86_stats_refuted: without the condition on -2^15 cycles the overlap step can fail for the negated tiles only. C86_run is about whole runs of the program from empty folders.")

c("C87", "proved", "C87_root C87_count C87_average C87_one C87_sample",
  "The quotient is rounded to double precision. Of numpy's square root only that it does not step over a multiple of 2^-10. At most 2^32 times the target number of pixels.")
c("C88", "proved", "C88_tile C88_stack C88_run C88_ties_refuted",
  "Exact arithmetic. The statistics of the overlaps are equal, so the bulk offsets, which depend on nothing else, are equal too. C88_run is about whole runs of the program from empty folders. C88_ties_refuted shows that a phase of exactly half a cycle can come out a cycle apart.")
c("C89", "proved", "C89_growth C89_one_line C89_walk C89_tiles C89_linked C89_region C89_rounded C89_any_factor_refuted",
  "The edges of the tiles are computed with the rounding of double precision. C89_region is in exact arithmetic, C89_rounded in single precision up to the point where rasters are written (C71), for stacks within the sizes given there and at most four tiles over a pixel. In C89_region with method L2 all coherent pixels must be connected and every tile must have one. C89_any_factor_refuted shows that a positive factor may be lost in rounding.")
c("C90", "proved", "C90_tile C90_stack",
  "Exact arithmetic. C90_stack has the hypotheses of C76 about the recorded overlaps of the first run: more than half of the shared pixels agree, without contradiction around loops. Where the merged phase is exactly half a cycle away from the smooth model it may take another number of cycles, as in C76. That the overlap statistics and bulk offsets of the second run exist is assumed.")
c("C91", "proved", "C91_score C91_cheapest C91_flat_rows C91_flat_columns C91_flat_distinct C91_transposed C91_split C91_density C91_rounded C91_unrounded",
  "Real arithmetic for the scores, except C91_rounded: with every operation rounded by a relative error of at most u (overflow and underflow left out) the chosen cut costs at most (1+u)^5/(1-u)^7 times the cheapest; scores this close may be taken in another order. The cuts themselves are exact.")
