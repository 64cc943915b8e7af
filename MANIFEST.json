{"claims": [
{"property": "C01", "status": "proved", "theorems": ["C01_find_decides_connectivity", "C01_default_constructor"], "note": ""},
{"property": "C02", "status": "proved", "theorems": ["C02_size_counts_class", "C02_setNum_counts_classes"], "note": ""},
{"property": "C03", "status": "partial", "theorems": ["C03_setNum_makeSet_refuted", "C03_setNum_makeSet_partial"], "note": "The property is false of the code: refuted with a witness (makeSet leaves the counter alone); the partial theorem gives the exact value setNum() returns."},
{"property": "C04", "status": "proved", "theorems": ["C04_find_observably_pure"], "note": ""},
{"property": "C05", "status": "proved", "theorems": ["C05_find_out_of_range", "C05_join_same_set", "C05_legal_histories_safe", "C05_join_one_invalid_id_undefined", "C05_size_invalid_id_undefined"], "note": "Also shows which calls with invalid ids are undefined behaviour."},
{"property": "C06", "status": "proved", "theorems": ["C06_parents_one_per_set"], "note": ""},
{"property": "C07", "status": "proved", "theorems": ["C07_trees_shallow"], "note": ""},
{"property": "C08", "status": "proved", "theorems": ["C08_set_algebra"], "note": ""},
{"property": "C09", "status": "partial", "theorems": ["C09_equality_refuted", "C09_equality_same_size_partial", "C09_equality_exact"], "note": "False of the code: refuted with a witness; proved for sets of equal size, and the exact behaviour in all cases is characterised."},
{"property": "C10", "status": "proved", "theorems": ["C10_multiset"], "note": "Any comparator, any history."},
{"property": "C11", "status": "proved", "theorems": ["C11_extremes_push"], "note": "Also allows popBottom between the pushes."},
{"property": "C12", "status": "proved", "theorems": ["C12_extremes_distinct"], "note": "Needs inequivalence only at the moments popTop is called."},
{"property": "C13", "status": "partial", "theorems": ["C13_extremes_duplicates_refuted", "C13_extremes_two_copies_partial", "C13_extremes_tame_partial"], "note": "False of the code: heapDownMin keeps sinking below the child it swapped with; refuted with three equivalent elements (both ends wrong). Proved whenever no element has more than two equivalent copies at each popTop, or (tame) more generally when every element with more copies comes last in order."},
{"property": "C14", "status": "partial", "theorems": ["C14_next_refuted", "C14_next_sizes_partial"], "note": "False of the code: refuted for nextTop (4 elements) and nextBottom (4 elements). Proved for nextTop with 2, 3 or at least 6 elements and nextBottom with 2 or 3."},
{"property": "C15", "status": "proved", "theorems": ["C15_memory_safety"], "note": "Any comparator, even one that is not an order; size_t wrap-around of indices is outside the model."},
{"property": "C16", "status": "proved", "theorems": ["C16_bijection"], "note": "Boxes of int coordinates with positive extents and cell count below 2^31."},
{"property": "C17", "status": "proved", "theorems": ["C17_iteration"], "note": "Extents may be zero; negative extents are C65."},
{"property": "C18", "status": "proved", "theorems": ["C18_neighbours"], "note": ""},
{"property": "C19", "status": "partial", "theorems": ["C19_neighbours_refuted", "C19_neighbours_exact_partial"], "note": "False of the code for three or more dimensions: refuted with a witness; the exact condition on the extents is proved (iff)."},
{"property": "C20", "status": "proved", "theorems": ["C20_intersect", "C20_intersect_shape", "C20_translate_vector", "C20_translate_axis", "C20_stacked"], "note": ""},
{"property": "C21", "status": "proved", "theorems": ["C21_size"], "note": "Unrestricted claim is C66."},
{"property": "C22", "status": "proved", "theorems": ["C22_grid_cells", "C22_checked_position"], "note": "For every grid reachable through the public interface."},
{"property": "C23", "status": "proved", "theorems": ["C23_nlz"], "note": ""},
{"property": "C24", "status": "proved", "theorems": ["C24_power_of_two"], "note": ""},
{"property": "C25", "status": "proved", "theorems": ["C25_float_fields", "C25_out_of_range"], "note": "Also shows what happens outside the exponent range."},
{"property": "C26", "status": "partial", "theorems": ["C26_log2Mod_refuted", "C26_log2Mod_partial", "C26_log2Mod_int64_partial"], "note": "False for int64_t (uses nlz8): refuted; exact int64 result proved. Undefined at INT32_MIN. Proved for all other types and values."},
{"property": "C27", "status": "partial", "theorems": ["C27_min_refuted", "C27_min_exact", "C27_floorPow2_partial", "C27_ceilPow2_partial"], "note": "Undefined at the minimum of int32_t/int64_t (refuted); proved for every other value of every type, with the value returned when the result does not fit."},
{"property": "C28", "status": "partial", "theorems": ["C28_zorder", "C28_strict_total_order", "C28_any_dimension_refuted"], "note": "Proved for every width, signedness and every dimension up to 2^BIT_NUM (the range of the lastDim variable). Refuted beyond: with 8-bit coordinates and 257 dimensions lastDim wraps to 0 and two different points compare equal."},
{"property": "C29", "status": "proved", "theorems": ["C29_distance", "C29_distance_cube"], "note": "Symmetry, zero exactly for equal points, ultrametric inequality, range 0..BIT_NUM, and the exact characterisation by shared aligned cubes."},
{"property": "C30", "status": "partial", "theorems": ["C30_block_partial", "C30_undefined", "C30_unsigned_range", "C30_refuted"], "note": "Refuted in three ways: equal arguments and blocks of 2^31..2^(BIT_NUM-1) elements shift out of range (exact UB condition proved); the whole range of an unsigned type gets mid = 2^(w-1)-1. All other pairs: smallest aligned block, midpoint (C30_block_partial)."},
{"property": "C31", "status": "partial", "theorems": ["C31_split_partial", "C31_refuted", "C31_undefined"], "note": "Refuted: undefined as soon as one coordinate agrees (C31_undefined). When every coordinate pair is handled by intervalPow2Int: both points in the same smallest aligned block, mid separates them in Z-order and along the deciding coordinate."},
{"property": "C32", "status": "partial", "theorems": ["C32_order_partial", "C32_strict_total_partial", "C32_cycle_refuted", "C32_signed_zero_refuted", "C32_double_undefined"], "note": "Strict total order equal to the Z-order of the expansions for singles that are +0 or at least 2^-103; refuted for negative coordinates (a 3-cycle) and signed zeros; double: undefined for every pair with different coordinates of one sign."},
{"property": "C33", "status": "partial", "theorems": ["C33_float_partial", "C33_opposite_signs", "C33_far_negative_undefined", "C33_double_undefined", "C33_refuted", "C33_subnormal_refuted"], "note": "Exact value for normal singles of one sign with a normal result; opposite signs give infinity; refuted (undefined) for distant negative singles, for results below the normal range, for all different doubles of one sign; wrong value for subnormals."},
{"property": "C34", "status": "partial", "theorems": ["C34_find_partial", "C34_sort_partial", "C34_double_undefined", "C34_find_refuted"], "note": "Proved for integer coordinates (see C73) and for single precision points with coordinates +0 or at least 2^-103; false in general for floats because the comparison is not an order (C32) and undefined for doubles."},
{"property": "C35", "status": "partial", "theorems": ["C35_ids_partial", "C35_converter_keeps", "C35_lost", "C35_refuted", "C35_range_refuted"], "note": "Ids are insertion numbers with reset (C75) and kept by the converting insertion; refuted for the other insertions without reset, which store -1."},
{"property": "C36", "status": "partial", "theorems": ["C36_nothing_reported", "C36_refuted", "C36_undefined"], "note": "Refuted: over integers the search never reports any item and is undefined when the upper corner follows all items in Z-order."},
{"property": "C37", "status": "proved", "theorems": ["C37_history", "C37_set_after_any_history", "C37_table_stays_ordered", "C37_set_then_get", "C37_get_missing", "C37_get_unconvertible", "C37_get_present"], "note": "Histories of set/get/clear against an independent last-writer specification; get laws for every value type and conversion pair."},
{"property": "C38", "status": "proved", "theorems": ["C38_write_read", "C38_commented_output_is_skipped"], "note": "Also over a non-empty table (read overrides) and for commented output."},
{"property": "C39", "status": "partial", "theorems": ["C39_arbitrary_round_trip_refuted"], "note": "False for arbitrary texts: witnesses for empty value, embedded space, leading '#'. The exact condition is C77."},
{"property": "C40", "status": "partial", "theorems": ["C40_command_line_partial", "C40_non_ascii_refuted"], "note": "Proved when the character after a leading dash is ASCII (C76); refuted otherwise: std::isalpha on a negative char is undefined."},
{"property": "C41", "status": "partial", "theorems": ["C41_tilde_exact", "C41_tilde_refuted"], "note": "Refuted: replacing a value erases the element under the loop iterator (undefined). Exact condition for undefined behaviour proved; otherwise nothing changes."},
{"property": "C42", "status": "proved", "theorems": ["C42_container", "C42_tokens", "C42_inserter"], "note": "Tokens characterised by an inductive relation, proved equivalent; inserter variant included."},
{"property": "C43", "status": "proved", "theorems": ["C43_count_min_max", "C43_other_labels_untouched", "C43_own_samples_only", "C43_printed_lines"], "note": "Exact rationals; count, minimum, maximum, label isolation, printed lines."},
{"property": "C44", "status": "partial", "theorems": ["C44_mean_variance_refuted"], "note": "Refuted: updateStat divides by the old count, so the first sample is dropped, and getVariance divides the average instead of the squared deviations. C78 states what is reported."},
{"property": "C45", "status": "proved", "theorems": ["C45_evaluateFourier"], "note": "Exact real arithmetic, all coefficient vectors; the model returns whether the diagnostic was printed."},
{"property": "C46", "status": "proved", "theorems": ["C46_findLUCos"], "note": "Exact real arithmetic; the returned values are the minimum and the maximum over the interval, given in either order."},
{"property": "C47", "status": "partial", "theorems": ["C47_bounds_refuted", "C47_bounds_partial"], "note": "Refuted for the empty (even) vector, which is read out of bounds; C47_bounds_partial covers every vector with at least two coefficients. Exact composition in C85."},
{"property": "C48", "status": "partial", "theorems": ["C48_normalize_refuted", "C48_normalize_partial"], "note": "normalize360 reduces by K_2PI = 6.28318530718 > 2 pi, so 2 pi is not reduced (refuted for the period 2 pi); with the library's own period and for normalize180 it holds, see C87."},
{"property": "C49", "status": "proved", "theorems": ["C49_recurrence", "C49_zero"], "note": "Exact real arithmetic. The values extend to a positive solution of the recurrence up to the starting index that ends with 0 there, which determines them."},
{"property": "C50", "status": "proved", "theorems": ["C50_lookup"], "note": "Exact real arithmetic, every table with increasing abscissas from 0 (what init builds, C93)."},
{"property": "C51", "status": "proved", "theorems": ["C51_running_sums"], "note": "Exact rational arithmetic; for equal end points any order left by std::sort."},
{"property": "C52", "status": "proved", "theorems": ["C52_result"], "note": "Exact rational arithmetic; strict minimality also against the consensus set of every position."},
{"property": "C53", "status": "proved", "theorems": ["C53_one_dimension"], "note": "Any strict weak order, any int domain, any positive window."},
{"property": "C54", "status": "partial", "theorems": ["C54_every_peak_refuted", "C54_line_partial"], "note": "Refuted in two dimensions by a concrete histogram (duplicate entries in the window heap hide a peak); on a line it holds for all cells but the first, which is never tested."},
{"property": "C55", "status": "proved", "theorems": ["C55_nearest"], "note": "any dimension >= 1, exact reals; rounding and NaN not modelled"},
{"property": "C56", "status": "partial", "theorems": ["C56_params_differ", "C56_params_refuted", "C56_params_partial"], "note": "false: the int overload forgets rhoMin; on every default initialised detector with two or more bins the overloads differ on every cell (C56_params_differ); they agree exactly when rhoMin = 0"},
{"property": "C57", "status": "partial", "theorems": ["C57_votes_refuted", "C57_votes_partial"], "note": "false: truncation toward zero puts the points of the bin below into the first bin; exact for the other bins; all votes stay inside the accumulator (C121)"},
{"property": "C58", "status": "proved", "theorems": ["C58_edges"], "note": "Exact adjacency, node numbering, symmetry, irreflexivity for any conforming std::sort; real distances."},
{"property": "C59", "status": "partial", "theorems": ["C59_output_refuted", "C59_associate_exact", "C59_never_written"], "note": "False of the code: the output vector is never written, and on any non-empty problem the search erases the element its range-for loop refers to (undefined) unless the process-wide counter is already at 199. C59_associate_exact is the exact behaviour of associate; C59_never_written holds for every call."},
{"property": "C60", "status": "proved", "theorems": ["C60_round_trip"], "note": "exact arithmetic, both directions"},
{"property": "C61", "status": "proved", "theorems": ["C61_ccw"], "note": "exact arithmetic"},
{"property": "C62", "status": "proved", "theorems": ["C62_frame"], "note": "exact arithmetic; constant height -|d|/|n|"},
{"property": "C63", "status": "proved", "theorems": ["C63_listing"], "note": "directories whose entries can all be queried"},
{"property": "C64", "status": "partial", "theorems": ["C64_static_no_overflow", "C64_runtime_overflow_refuted", "C64_runtime_no_overflow_partial"], "note": "False for RasterIndexer::getPos (refuted with a witness); proved for StaticRasterIndexer::getPos, and for RasterIndexer when min + cell count stays in int."},
{"property": "C65", "status": "partial", "theorems": ["C65_negative_extents_refuted"], "note": "False of the code: an interval with extents (-1,-1) is empty() but iteration visits one cell. Non-negative extents: C17."},
{"property": "C66", "status": "partial", "theorems": ["C66_size_refuted", "C66_size_exact_partial"], "note": "False of the code in both directions (negative extents; wrap-around of the product); size() = product mod 2^64 proved exactly."},
{"property": "C67", "status": "proved", "theorems": ["C67_constructors"], "note": ""},
{"property": "C68", "status": "partial", "theorems": ["C68_reinit_refuted", "C68_reinit_exact_partial", "C68_new_grid_partial"], "note": "False of the code: initBounds only resizes the storage, old values show through; exact value of every cell proved, and the claim for a newly constructed grid."},
{"property": "C69", "status": "partial", "theorems": ["C69_dividePow2_refuted", "C69_dividePow2_exact_partial"], "note": "False: negative shift when the exponent exceeds exp2 by more than the mantissa width; exact definedness and result proved."},
{"property": "C70", "status": "partial", "theorems": ["C70_distance_partial", "C70_cube_partial", "C70_refuted"], "note": "Ultrametric and cube characterisation for singles that are +0 or at least 2^-103; refuted (undefined) for distant negative singles and for doubles."},
{"property": "C71", "status": "partial", "theorems": ["C71_interval_partial", "C71_descending_undefined", "C71_refuted"], "note": "Proved for normal singles of one sign in increasing magnitude; undefined in every other order."},
{"property": "C72", "status": "partial", "theorems": ["C72_undefined", "C72_split_partial", "C72_order_refuted"], "note": "Refuted: undefined whenever some coordinate of the first point has magnitude not below that of the second."},
{"property": "C73", "status": "proved", "theorems": ["C73_find", "C73_defined"], "note": "Fewer than 2^31 items."},
{"property": "C74", "status": "proved", "theorems": ["C74_level"], "note": "Fewer than 2^31 items."},
{"property": "C75", "status": "proved", "theorems": ["C75_reset_ids"], "note": "Integer points and plain single precision points; fewer than 2^31 items."},
{"property": "C76", "status": "proved", "theorems": ["C76_ascii_command_line", "C76_non_ascii_is_undefined"], "note": "Exact on ASCII; undefined behaviour characterised otherwise."},
{"property": "C77", "status": "proved", "theorems": ["C77_round_trip_iff", "C77_overlong_line_ends_reading"], "note": "Both directions."},
{"property": "C78", "status": "proved", "theorems": ["C78_what_is_reported"], "note": "Closed form of the reported numbers."},
{"property": "C79", "status": "proved", "theorems": ["C79_safe_any_dimension"], "note": ""},
{"property": "C80", "status": "partial", "theorems": ["C80_sound_refuted", "C80_space_refuted", "C80_line_partial"], "note": "false from two dimensions on (3x13 witness, and a 2x3x3 one); proved on a line"},
{"property": "C81", "status": "proved", "theorems": ["C81_zero_window"], "note": ""},
{"property": "C82", "status": "partial", "theorems": ["C82_empty_refuted", "C82_divides_by_zero", "C82_size_mismatch"], "note": "Refuted: empty input dereferences end(); every non-empty input with positive ranges divides 0 by 0 at the last end point (a NaN that min_element ignores in exact arithmetic). Size mismatch stops the program."},
{"property": "C83", "status": "partial", "theorems": ["C83_maximum_consensus_refuted"], "note": "Refuted with two overlapping measurements."},
{"property": "C84", "status": "proved", "theorems": ["C84_between_extremes", "C84_unanimous"], "note": ""},
{"property": "C85", "status": "proved", "theorems": ["C85_findLUFourier_exact"], "note": "Exact real arithmetic."},
{"property": "C86", "status": "partial", "theorems": ["C86_same_series_refuted", "C86_same_series_partial"], "note": "Refuted: the two functions use different series (k t versus 2 k t). C86_same_series_partial: it holds when evaluateFourier is called with twice the angle."},
{"property": "C87", "status": "proved", "theorems": ["C87_normalize360", "C87_normalize180"], "note": "Exact real arithmetic."},
{"property": "C88", "status": "proved", "theorems": ["C88_fastCosSin", "C88_periodic", "C88_quarter_turns"], "note": "Exact real arithmetic; the error bound is checked with rational interval arithmetic over the Taylor bounds of the sine."},
{"property": "C89", "status": "proved", "theorems": ["C89_fastAtan"], "note": "Exact real arithmetic; mean value theorem over 512 pieces with rational interval arithmetic."},
{"property": "C90", "status": "proved", "theorems": ["C90_fastAtan2"], "note": "Exact real arithmetic; 0/0 at the origin is outside."},
{"property": "C91", "status": "partial", "theorems": ["C91_decreasing_refuted", "C91_decreasing_partial"], "note": "Refuted at n = 2, x = 1000, where order 1 comes out below order 2: the downward recurrence starts too low for large x. Holds for |x| <= 2k (C91_decreasing_partial)."},
{"property": "C92", "status": "proved", "theorems": ["C92_order0_accuracy", "C92_positive_even"], "note": "Exact real arithmetic; the branch |x| >= 3.75 is shown positive and even only."},
{"property": "C93", "status": "proved", "theorems": ["C93_init"], "note": "Exact real arithmetic."},
{"property": "C94", "status": "partial", "theorems": ["C94_init_defined_refuted", "C94_init_defined_partial"], "note": "Refuted for n = 0, where y[1] is read past the row; C94_init_defined_partial for n >= 1."},
{"property": "C95", "status": "partial", "theorems": ["C95_orders_refuted", "C95_orders_partial"], "note": "Refuted: the assertion rejects k = n. C95_orders_partial: exactly the orders below n are answered; the all-order lookup returns order n too (C50)."},
{"property": "C96", "status": "partial", "theorems": ["C96_area_refuted", "C96_area_partial"], "note": "refuted: the value is twice the signed area (C96_area_partial)"},
{"property": "C97", "status": "proved", "theorems": ["C97_intervals"], "note": "period K_2PI as a float"},
{"property": "C98", "status": "partial", "theorems": ["C98_turns_refuted", "C98_turns_partial"], "note": "refuted: the period K_2PI is larger than 2 pi, so angles exactly one turn away are misjudged; without wrap-around it holds"},
{"property": "C99", "status": "partial", "theorems": ["C99_cone_refuted", "C99_cone_partial"], "note": "refuted for cones wider than half a turn, which contain their sides; holds up to half a turn; exact behaviour in C100"},
{"property": "C100", "status": "proved", "theorems": ["C100_cone_exact"], "note": ""},
{"property": "C101", "status": "proved", "theorems": ["C101_pose"], "note": ""},
{"property": "C102", "status": "partial", "theorems": ["C102_injective_refuted", "C102_injective_partial"], "note": "refuted: meterPerDegLon is called with the longitude and is 0 at 90 degrees; the latitude is always recovered"},
{"property": "C103", "status": "partial", "theorems": ["C103_rotation_refuted", "C103_rotation_partial"], "note": "refuted for the same reason; holds for whole turns"},
{"property": "C104", "status": "partial", "theorems": ["C104_axes_refuted", "C104_axes_partial"], "note": "refuted: east and west are exchanged about longitude 180; north is right for every origin"},
{"property": "C105", "status": "proved", "theorems": ["C105_ecef"], "note": "exact arithmetic"},
{"property": "C106", "status": "partial", "theorems": ["C106_constants_refuted", "C106_constants_partial"], "note": "refuted: the constant is the second eccentricity; the other relations hold"},
{"property": "C107", "status": "partial", "theorems": ["C107_orientation_refuted", "C107_orientation_partial"], "note": "refuted for planes through the origin; non-negative, and positive for the other planes"},
{"property": "C108", "status": "partial", "theorems": ["C108_scale_refuted", "C108_scale_partial"], "note": "refuted: the tolerance is not scaled; the rotation does not depend on the scale"},
{"property": "C109", "status": "proved", "theorems": ["C109_center"], "note": "exact arithmetic"},
{"property": "C110", "status": "partial", "theorems": ["C110_far_refuted", "C110_far_partial"], "note": "refuted for non-unit normals; holds for unit normals"},
{"property": "C111", "status": "proved", "theorems": ["C111_order"], "note": ""},
{"property": "C112", "status": "partial", "theorems": ["C112_throw_refuted", "C112_throw_partial"], "note": "refuted: files met before an entry whose status query throws stay appended, unsorted; a path that is no directory leaves the vector alone"},
{"property": "C113", "status": "proved", "theorems": ["C113_axes"], "note": "std::sort is any function that sorts the indices by side"},
{"property": "C114", "status": "partial", "theorems": ["C114_defined_refuted", "C114_defined_partial"], "note": "refuted for a default constructed box (perm_ has no value); proved after setDimension"},
{"property": "C115", "status": "partial", "theorems": ["C115_rotation_refuted", "C115_mirror_exact", "C115_rotation_partial"], "note": "refuted: for every orthonormal pair of eigenvectors some box gets determinant -1; proved: the columns are a permutation of the eigenvectors"},
{"property": "C116", "status": "proved", "theorems": ["C116_step2", "C116_step3"], "note": "JacobiSVD is any function returning a decomposition (existence proved in 2D and 3D)"},
{"property": "C117", "status": "proved", "theorems": ["C117_optimal2"], "note": "exact reals"},
{"property": "C118", "status": "proved", "theorems": ["C118_monotone2"], "note": "exact reals; the starting transform is a rotation"},
{"property": "C119", "status": "partial", "theorems": ["C119_monotone3_refuted", "C119_monotone3_partial"], "note": "refuted with a box and a cloud for every conforming decomposition (the sign is applied to the second singular vector); proved when the cross covariance has a positive determinant"},
{"property": "C120", "status": "partial", "theorems": ["C120_finite_refuted", "C120_finite_partial", "C120_finite3_partial", "C120_finite3_refuted"], "note": "refuted for an empty cloud (0/0), in 2D and in 3D; proved for non-empty clouds"},
{"property": "C121", "status": "proved", "theorems": ["C121_votes"], "note": ""},
{"property": "C122", "status": "proved", "theorems": ["C122_insert_defined"], "note": ""},
{"property": "C123", "status": "partial", "theorems": ["C123_insert_few", "C123_insert_refuted", "C123_insert_partial"], "note": "false: with one to seven longitudes insert divides by zero (phiNum/8); holds from eight on when the offsets fit an int"},
{"property": "C124", "status": "proved", "theorems": ["C124_insert_additive"], "note": ""},
{"property": "C125", "status": "partial", "theorems": ["C125_overloads_refuted", "C125_range_partial"], "note": "false: the vector overload adds to earlier votes, the iterator overload resets first"},
{"property": "C126", "status": "proved", "theorems": ["C126_normals"], "note": ""},
{"property": "C127", "status": "partial", "theorems": ["C127_defaults_differ", "C127_defaults_refuted", "C127_defaults_partial"], "note": "false: theta starts at 0 with step pi/(2 thetaNum), rho at -(rhoNum/2) rhoRes; only phi is as documented"},
{"property": "C128", "status": "proved", "theorems": ["C128_vote_distance"], "note": ""},
{"property": "C129", "status": "partial", "theorems": ["C129_half_bin_refuted", "C129_half_bin_partial"], "note": "false: a voting point may be almost rhoRes away; within rhoRes always (C128)"},
{"property": "C130", "status": "proved", "theorems": ["C130_find_planes"], "note": ""},
{"property": "C131", "status": "partial", "theorems": ["C131_best_direction_refuted"], "note": "false: the first direction (0,0) is never reported (C130), even when it holds all votes"},
{"property": "C132", "status": "proved", "theorems": ["C132_plane_params"], "note": ""},
{"property": "C133", "status": "proved", "theorems": ["C133_init_resets"], "note": ""},
{"property": "C134", "status": "proved", "theorems": ["C134_window"], "note": ""},
{"property": "C135", "status": "partial", "theorems": ["C135_range_check_refuted", "C135_range_check_partial"], "note": "false: findParallelPlanes has no range check and reads outside the storage; the getters do check"},
{"property": "C136", "status": "partial", "theorems": ["C136_empty_refuted"], "note": "false: the peak finder stops the program on an empty domain"},
{"property": "C137", "status": "partial", "theorems": ["C137_line_never_votes", "C137_line_votes_refuted"], "note": "false: the body of HoughLineDetector::insert is empty; all counters stay zero (C137_line_never_votes)"},
{"property": "C138", "status": "partial", "theorems": ["C138_no_lines", "C138_lines_refuted"], "note": "false: findLines never adds anything (C138_no_lines)"},
{"property": "C139", "status": "partial", "theorems": ["C139_associations_refuted", "C139_always_undefined", "C139_always_empty"], "note": "False: undefined for every non-empty problem while the counter is below 199, and empty whenever it returns (both proved for all inputs)."},
{"property": "C140", "status": "partial", "theorems": ["C140_replace_source_refuted", "C140_stale_distances_stop"], "note": "False: distances of the first set stay in the vector; a matching stale pair beyond the new size stops the program (proved for all such inputs). One insertion on a fresh object is C58."},
{"property": "C141", "status": "partial", "theorems": ["C141_repeat_refuted", "C141_nodes_appended"], "note": "False: nodes are appended, the second graph has twice as many nodes (proved for all problems whose first call returns)."},
{"property": "C142", "status": "partial", "theorems": ["C142_history_refuted"], "note": "False: the static iteration counter decides between undefined behaviour and an early return; the exact dependence is C59_associate_exact."},
{"property": "C143", "status": "partial", "theorems": ["C143_source_refuted", "C143_source_exact"], "note": "refuted with resetId (the source items are renumbered through the iterators); exact theorem for both flags"},
{"property": "C144", "status": "partial", "theorems": ["C144_centre_refuted", "C144_centre_partial"], "note": "refuted: unsigned and narrow corners wrap, int/long overflow is undefined; equality with the two-corner search proved whenever the corners are representable"},
{"property": "C145", "status": "proved", "theorems": ["C145_file"], "note": ""},
{"property": "C146", "status": "partial", "theorems": ["C146_queue_refuted", "C146_queue_partial"], "note": "false (witness of fourteen calls on two values); holds when every element but the last in order has at most two copies at each popTop"},
{"property": "C147", "status": "partial", "theorems": ["C147_ties_sound_refuted", "C147_ties_sound_partial"], "note": "false (22-cell witness); holds when only the worst value occurs more than twice on the line"},
{"property": "C148", "status": "partial", "theorems": ["C148_ties_complete_refuted", "C148_ties_complete_partial"], "note": "false (5-cell witness); holds when only the worst value occurs more than twice and no earlier cell outside the window ties with the cell"},
{"property": "C149", "status": "proved", "theorems": ["C149_rare_ties"], "note": ""},
{"property": "C150", "status": "partial", "theorems": ["C150_best_cell_refuted", "C150_best_cell_partial"], "note": "False: in four dimensions the window can drift out of the domain and the best cell is lost (C150_best_cell_refuted, 3x3x3x2 with half-widths 1). C150_best_cell_partial proves it in any dimension for extents where successive cells of the walk are neighbours; C151 covers all boxes of up to three dimensions."},
{"property": "C151", "status": "proved", "theorems": ["C151_best_cell"], "note": ""},
{"property": "C152", "status": "proved", "theorems": ["C152_best_direction"], "note": ""},
{"property": "C153", "status": "proved", "theorems": ["C153_best_bin"], "note": ""},
{"property": "C154", "status": "proved", "theorems": ["C154_best_plane"], "note": ""},
{"property": "C155", "status": "proved", "theorems": ["C155_reported_values"], "note": ""},
{"property": "C156", "status": "proved", "theorems": ["C156_union"], "note": ""},
{"property": "C157", "status": "proved", "theorems": ["C157_parallel_planes"], "note": ""},
{"property": "C158", "status": "proved", "theorems": ["C158_order0_large"], "note": "Exact real arithmetic; comparison through the differential equation of I0 with a degree 16 polynomial."},
{"property": "C159", "status": "partial", "theorems": ["C159_decreasing_refuted", "C159_decreasing_partial"], "note": "False: the value jumps up by 9e-9 at |x| = 3.75. Proved: strictly decreasing on each side, and never more than 1e-8 above an earlier value."},
{"property": "C160", "status": "partial", "theorems": ["C160_tolerance_refuted", "C160_small_tolerance", "C160_tolerance_partial"], "note": "False: for tol < 2e-6 the second node lies below 1e-6 where order 0 is the constant 2, the slope estimate is 0 and the third node is about 1e300 away, so every lookup is about 2 (C160_small_tolerance). Past the last node the last value is kept. C160_tolerance_partial: tol >= 2e-6 and arguments in the range of the table."},
{"property": "C161", "status": "proved", "theorems": ["C161_accuracy"], "note": "Exact arithmetic. Convexity of both branches, I_1 / I_0 bounded by a rational function through its Riccati equation, invariant of the node placement."},
{"property": "C162", "status": "proved", "theorems": ["C162_orders"], "note": "Exact arithmetic. Casoratian of the computed and the true solution of the recurrence."},
{"property": "C163", "status": "proved", "theorems": ["C163_degrees"], "note": "Exact arithmetic; the lengths are speeds of the points of the ellipsoid, derivatives taken with Coquelicot."},
{"property": "C164", "status": "partial", "theorems": ["C164_metres_refuted", "C164_metres_partial"], "note": "False for x: the metres per degree are evaluated at the longitude of the origin, at latitude 60 and longitude 0 a degree east is about 55 km too long. C164_metres_partial: y for every origin, x if the longitude of the origin equals its latitude."},
{"property": "C165", "status": "proved", "theorems": ["C165_sensor"], "note": "Exact arithmetic."},
{"property": "C166", "status": "partial", "theorems": ["C166_zero_refuted", "C166_zero_partial"], "note": "False: the plane is moved to the height minus its distance from the origin, since the centre is projected on the plane through the origin. C166_zero_partial: the height is 0 exactly if the plane passes through the origin, and constant on the plane."},
{"property": "C167", "status": "proved", "theorems": ["C167_x_axis"], "note": "Exact arithmetic; ties go to the z axis."},
{"property": "C168", "status": "partial", "theorems": ["C168_range_refuted", "C168_twice_refuted", "C168_range_partial"], "note": "False in double arithmetic: C168_range_refuted and C168_twice_refuted give doubles with a negative result, with the period itself as result, and with two different results for one and two calls. C168_range_partial bounds the excess."},
{"property": "C169", "status": "proved", "theorems": ["C169_congruent", "C169_unchanged"], "note": "Double arithmetic modelled with Flocq; overflow, NaN and infinities not modelled."},
{"property": "C170", "status": "proved", "theorems": ["C170_cos_sin"], "note": "Double arithmetic modelled with Flocq."},
{"property": "C171", "status": "partial", "theorems": ["C171_bounded_refuted", "C171_bounded_partial"], "note": "False beyond 2^51: C171_bounded_refuted gives a double near 2^55 with a sine above 20. C171_bounded_partial proves the bound for |x| <= 2^51."},
{"property": "C172", "status": "proved", "theorems": ["C172_atan", "C172_atan2", "C172_sign"], "note": "Double arithmetic modelled with Flocq; the sign of a zero ordinate is not modelled."},
{"property": "C173", "status": "proved", "theorems": ["C173_bounded"], "note": "The part of C171 that holds."},
{"property": "C174", "status": "proved", "theorems": ["C174_atanf", "C174_atan2f", "C174_sign"], "note": "Single precision modelled with Flocq; the sign of a zero ordinate is not modelled."},
{"property": "C175", "status": "partial", "theorems": ["C175_range_refuted", "C175_range_partial"], "note": "False: fastAtan2f(-1, 0) is the float above pi (C175_range_refuted). C175_range_partial: never beyond that float."},
{"property": "C176", "status": "proved", "theorems": ["C176_cos_sinf", "C176_bounded"], "note": "Single precision modelled with Flocq, for both overloads of floor."},
{"property": "C177", "status": "proved", "theorems": ["C177_round_trip", "C177_round_tripf"], "note": "Composition of the two functions, in double and in single precision."},
{"property": "C178", "status": "partial", "theorems": ["C178_turn_refuted", "C178_turn_partial"], "note": "False: with floats ccw is 33554432 for (2^24, 2^24), (-2, -1), (-1, 0), which turn right. Proved: right up to zero results when the differences of the coordinates are floats; antisymmetric in the last two points."},
{"property": "C179", "status": "proved", "theorems": ["C179_lattice_ccw", "C179_lattice_cone"], "note": "Overflow is not modelled (the results are below 2^24 steps squared)."},
{"property": "C180", "status": "proved", "theorems": ["C180_ccw_error", "C180_ccw_sure"], "note": ""},
{"property": "C181", "status": "partial", "theorems": ["C181_range_refuted", "C181_range_partial"], "note": "False: the result for -2^-60 is the float nearest to 2 pi, which is larger. Proved: within 6 * 2^-24 * (|x| + 8) of [0, 2 pi]."},
{"property": "C182", "status": "proved", "theorems": ["C182_normalize_error"], "note": ""},
{"property": "C183", "status": "proved", "theorems": ["C183_inside"], "note": ""},
{"property": "C184", "status": "proved", "theorems": ["C184_constructed", "C184_default", "C184_line"], "note": ""},
{"property": "C185", "status": "proved", "theorems": ["C185_defaults"], "note": ""},
{"property": "C186", "status": "partial", "theorems": ["C186_late_ids_refuted", "C186_late_ids_partial"], "note": "False from item number 2^31 on: the size is converted to int. Proved: the id is the int that differs from k by a multiple of 2^32 (single insertions)."},
{"property": "C187", "status": "proved", "theorems": ["C187_default_box"], "note": ""},
{"property": "C188", "status": "proved", "theorems": ["C188_entries"], "note": ""},
{"property": "C189", "status": "proved", "theorems": ["C189_plus_assign", "C189_plus_self", "C189_times_assign", "C189_times_self"], "note": ""},
{"property": "C190", "status": "partial", "theorems": ["C190_scale_refuted", "C190_scale_partial"], "note": "False when s is an entry of v other than the last: [2, 5] *= its first entry gives [4, 20]. Proved: right for every other scalar; otherwise the entries behind it are multiplied by its square."},
{"property": "C191", "status": "partial", "theorems": ["C191_local_refuted", "C191_local_partial"], "note": "False: 3/16 m north of latitude 45 come back as 0, as floats are 0.42 m apart there. Proved: within 1.3 m in x and 0.65 m in y up to one degree away."},
{"property": "C192", "status": "proved", "theorems": ["C192_degrees"], "note": ""},
{"property": "C193", "status": "proved", "theorems": ["C193_metres"], "note": ""},
{"property": "C194", "status": "partial", "theorems": ["C194_ecef_refuted", "C194_ecef_partial"], "note": "False: 3/16 m of altitude at the equator are lost. Proved: within 5 m."},
{"property": "C195", "status": "proved", "theorems": ["C195_ecef"], "note": ""},
{"property": "C196", "status": "proved", "theorems": ["C196_forward"], "note": "bound against the real-valued formula; rounding model of SingleModel.v"},
{"property": "C197", "status": "proved", "theorems": ["C197_end"], "note": "both readings of the call of floor"},
{"property": "C198", "status": "partial", "theorems": ["C198_own_plane_refuted", "C198_own_plane_partial"], "note": "False: with bins of the float 1/7 the plane of bin 7 is at distance 1, points at distance 1 vote for bin 6. Proved: the vote goes to the bin or to the one below."},
{"property": "C199", "status": "proved", "theorems": ["C199_sure", "C199_vote", "C199_defined"], "note": "rounding model of SingleModel.v; both readings of the calls of sin and cos"},
{"property": "C200", "status": "proved", "theorems": ["C200_distance"], "note": "rounding model of SingleModel.v; both readings of the calls of sin and cos"},
{"property": "C201", "status": "proved", "theorems": ["C201_normals", "C201_start"], "note": "rounding model of SingleModel.v; both readings of the calls of sin and cos"},
{"property": "C202", "status": "proved", "theorems": ["C202_monotone", "C202_no_resolution"], "note": "rounding model of SingleModel.v; both readings of the calls of sin and cos"},
{"property": "C203", "status": "proved", "theorems": ["C203_double", "C203_single", "C203_empty", "C203_nan", "C203_mismatch"], "note": "float and double; every order std::sort may leave equal keys in"},
{"property": "C204", "status": "partial", "theorems": ["C204_between_refuted", "C204_single_refuted", "C204_between_partial"], "note": "refuted: double 1000000004, 1000000005, 1000000010 with ranges 3.9 give 268435456 (the running sums do not return to 0), float 10003, 10001 give 52224; partial: data on a grid with equal power-of-two ranges"},
{"property": "C205", "status": "partial", "theorems": ["C205_unanimous_refuted", "C205_single_refuted", "C205_unanimous_partial"], "note": "refuted: double 100000028 twice with ranges 0.3, 0.6 gives 67108864, float 10005 three times gives -4096; partial: data on a grid with equal power-of-two ranges"},
{"property": "C206", "status": "partial", "theorems": ["C206_finite_refuted", "C206_single_refuted", "C206_finite_partial"], "note": "refuted: the value 0 with range 1e200 (float 1e20) gives NaN; partial: data on a grid with equal power-of-two ranges"},
{"property": "C207", "status": "proved", "theorems": ["C207_double", "C207_single"], "note": "float and double"},
{"property": "C208", "status": "partial", "theorems": ["C208_single_refuted"], "note": "refuted: double 5 with range 3, float 25 with range 3; the error is bounded by C209, exact cases are C207"},
{"property": "C209", "status": "proved", "theorems": ["C209_double", "C209_single"], "note": "float and double"},
{"property": "C210", "status": "proved", "theorems": ["C210_double", "C210_single"], "note": "float and double; n and V rounded up to powers of two (2^L and 2^(m+e))"},
{"property": "C211", "status": "partial", "theorems": ["C211_overflow_refuted", "C211_constructors_exact_partial", "C211_bounds_exact_partial", "C211_inside_exact_partial", "C211_inside_order_partial", "C211_intersect_exact_partial", "C211_moves_exact_partial"], "note": "False: inside, max and last add min and extent, which overflows for a box whose last cell is the largest int, and intersect overflows for boxes far apart. The exact overflow condition of every operation is proved."},
{"property": "C212", "status": "proved", "theorems": ["C212_near_zero"], "note": ""},
{"property": "C213", "status": "proved", "theorems": ["C213_peaks_int_exact", "C213_line"], "note": ""},
{"property": "C214", "status": "proved", "theorems": ["C214_peaks_int_any"], "note": ""},
{"property": "C215", "status": "partial", "theorems": ["C215_empty_domain_refuted", "C215_empty_domain_exact_partial"], "note": "Refuted: with two negative extents (setDomain(imin, imax) with imax < imin - 1 in two coordinates) size() is positive, cells outside the domain are visited and detect returns normally. Exact parts: a zero extent always stops with the assertion; a negative number of cells (at least -2^31) is undefined behaviour."},
{"property": "C216", "status": "proved", "theorems": ["C216_spectrum", "C216_parallel", "C216_planes", "C216_lines", "C216_lines_any"], "note": "Exact condition, for the plane searches and for findLines (which finds nothing, C138)."},
{"property": "C217", "status": "proved", "theorems": ["C217_default_windows"], "note": "One insertion after construction; windows of one cell (C184)."},
{"property": "C218", "status": "proved", "theorems": ["C218_same_answers", "C218_connectivity"], "note": "int model of every operation, simulated by the model of C01-C07 on all legal histories below 2^31 elements"},
{"property": "C219", "status": "partial", "theorems": ["C219_any_number_refuted", "C219_full_partial"], "note": "refuted: with 2^31 elements nodes_.size() becomes -2^31 as an int, so every find is refused, every join silently does nothing, size() reads out of bounds and parents() overflows; proved for every state of 2^31 nodes"},
{"property": "C220", "status": "proved", "theorems": ["C220_reads_back", "C220_same_text", "C220_format"], "note": "text model of print with the decimal numerals of the standard library; read back by an independent reader"},
{"property": "C221", "status": "partial", "theorems": ["C221_nan_refuted", "C221_left_undefined", "C221_right_partial", "C221_finite_partial"], "note": "refuted: a NaN coordinate of the first point against a finite coordinate of the same sign makes xorFloat shift by a negative count (proved for all points); in the opposite order the comparison is false; without NaN and infinities the comparison is the one of C32"},
{"property": "C222", "status": "partial", "theorems": ["C222_between_refuted", "C222_between_partial"], "note": "refuted: after 1 and 2^-60 the average is 0, below both, and the accumulated squares are negative (already with ordinary times, such as 19.6 then 1.7, the average falls below the minimum); proved: it leaves the range by at most 3 * 2^-53 times the maximum"},
{"property": "C223", "status": "proved", "theorems": ["C223_statistics"], "note": "update in double arithmetic; invariant over the samples by monotonicity of rounding and the relative error of sums"},
{"property": "C224", "status": "proved", "theorems": ["C224_links_compatible"], "note": "Window bounds rounded to float; soundness in real arithmetic."},
{"property": "C225", "status": "partial", "theorems": ["C225_compatible_linked_refuted", "C225_compatible_linked_partial"], "note": "Refuted with the default tolerance: two points at distance 2^21 do not match themselves, since the window bounds round to the distance. Linked whenever the difference is below the tolerance by the error of one rounding (partial)."},
{"property": "C226", "status": "proved", "theorems": ["C226_equal_distances", "C226_large_distances"], "note": "Both halves proved on the float model."},
{"property": "C227", "status": "partial", "theorems": ["C227_exchange_refuted", "C227_exchange_partial", "C227_exchange_exact"], "note": "Refuted: distances 2^24 and 2^24-1 with tolerance 7/4 link in one direction only. Holds outside the band of one rounding error (partial) and in exact arithmetic (exact)."},
{"property": "C228", "status": "proved", "theorems": ["C228_error"], "note": "Euclidean bound on the rotation recurrence, then on the sum."},
{"property": "C229", "status": "proved", "theorems": ["C229_set_get", "C229_written_text", "C229_file"], "note": "int and unsigned, 32 bits; operator<< and lexical_cast written from their specification."},
{"property": "C230", "status": "proved", "theorems": ["C230_command_line"], "note": ""},
{"property": "C231", "status": "proved", "theorems": ["C231_int_text"], "note": ""},
{"property": "C232", "status": "partial", "theorems": ["C232_unsigned_text_refuted", "C232_unsigned_text_partial"], "note": "False: a minus sign is accepted and the value wraps modulo 2^32 (C232_unsigned_text_refuted); true for texts denoting nonnegative numbers."},
{"property": "C233", "status": "proved", "theorems": ["C233_unsigned_text"], "note": ""},
{"property": "C234", "status": "proved", "theorems": ["C234_list_text", "C234_written_list"], "note": ""},
{"property": "C235", "status": "partial", "theorems": ["C235_blanks_refuted", "C235_blanks_partial"], "note": "False: an element with a leading blank ends the list silently (C235_blanks_refuted); the elements before it are read (C235_blanks_partial)."},
{"property": "C236", "status": "proved", "theorems": ["C236_samples", "C236_even", "C236_vector"], "note": ""},
{"property": "C237", "status": "partial", "theorems": ["C237_between_refuted", "C237_between_partial"], "note": "False: with both samples equal to 1 - 7*2^-53 the value at 3/8 of the way is larger (C237_between_refuted); it leaves the interval by four units of roundoff at most (C237_between_partial)."},
{"property": "C238", "status": "proved", "theorems": ["C238_error"], "note": ""},
{"property": "C239", "status": "proved", "theorems": ["C239_set_get", "C239_file", "C239_text"], "note": "text conversion of bool written from its specification (operator<< without boolalpha, boost::lexical_cast<bool>)"},
{"property": "C240", "status": "partial", "theorems": ["C240_words_refuted", "C240_words_partial"], "note": "refuted: the words are no numerals for lexical_cast<bool>; the variable keeps its value while the call returns true; exact behaviour in C240_words_partial"},
{"property": "C241", "status": "proved", "theorems": ["C241_principal_axes", "C241_small_cloud"], "note": "exact arithmetic; sort and eigen solver are parameters with their specification"},
{"property": "C242", "status": "proved", "theorems": ["C242_double", "C242_float"], "note": "half sides representable (every side except odd multiples of the smallest subnormal); no overflow"},
{"property": "C243", "status": "partial", "theorems": ["C243_nearest_refuted", "C243_nearest_partial"], "note": "refuted: two distances inside the box may round to the same double, the first side is kept; exact outside the box (partial), bounded inside (C242)"},
{"property": "C244", "status": "partial", "theorems": ["C244_covers_refuted", "C244_covers_partial"], "note": "refuted: the quotient may round down to a whole number of bins; covered up to rounding and monotone in C244_covers_partial"},
{"property": "C245", "status": "proved", "theorems": ["C245_whole_bins", "C245_detectors"], "note": "float arithmetic without overflow"},
{"property": "C246", "status": "proved", "theorems": ["C246_scopes", "C246_statistics"], "note": "exact arithmetic; the clock advances during work only"},
{"property": "C247", "status": "partial", "theorems": ["C247_here_refuted", "C247_here_partial"], "note": "refuted: the macro constructs an unnamed temporary, destroyed at the end of its own statement, so none of the block is measured; exact behaviour in C247_here_partial"},
{"property": "C248", "status": "partial", "theorems": ["C248_var_refuted", "C248_var_partial", "C248_seven_partial"], "note": "False for ROFL_VAR7, which writes the value of the seventh argument under the name of the sixth (C248_var_refuted); proved for one to six arguments, and what ROFL_VAR7 writes is stated exactly."},
{"property": "C249", "status": "proved", "theorems": ["C249_assert"], "note": ""},
{"property": "C250", "status": "proved", "theorems": ["C250_order"], "note": ""},
{"property": "C251", "status": "partial", "theorems": ["C251_distinct_refuted", "C251_distinct_partial"], "note": "False: two calls within one second give the same string (C251_distinct_refuted); proved: the strings are equal exactly when the local times shown are."}
]}
