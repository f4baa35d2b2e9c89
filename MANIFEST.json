{
 "claims": [
  {
   "property": "C01",
   "status": "proved",
   "theorems": [
    "C01_stretch_least_enclosing",
    "C01_encloses_iff_points",
    "C01_reset"
   ],
   "note": "Box edges as integers (units of 2^-1074), all box pairs of equal dimension."
  },
  {
   "property": "C02",
   "status": "proved",
   "theorems": [
    "C02_overlaps_iff_common_interior_point",
    "C02_overlaps_symmetric",
    "C02_overlap_area",
    "C02_intersection_largest",
    "C02_equal",
    "C02_area"
   ],
   "note": "Geometric reading with rational points."
  },
  {
   "property": "C03",
   "status": "proved",
   "theorems": [
    "C03_insertions_keep_all_leaves"
   ],
   "note": "For every choice oracle satisfying config_ok; the library's own heuristics satisfy it (lib_config_ok)."
  },
  {
   "property": "C04",
   "status": "proved",
   "theorems": [
    "C04_structure_invariant",
    "C04_history_refines_multiset"
   ],
   "note": "Node boxes enclose the leaves below them; they need not enclose child node boxes."
  },
  {
   "property": "C05",
   "status": "proved",
   "theorems": [
    "C05_overlap_query_exact"
   ],
   "note": ""
  },
  {
   "property": "C06",
   "status": "proved",
   "theorems": [
    "C06_enclosing_query_exact_for_solid_boxes",
    "C06_enclosing_query_misses_only_flat_leaves",
    "C06_enclosing_query_exact_refuted"
   ],
   "note": "Refutation shows the restriction to boxes with positive extent cannot be dropped."
  },
  {
   "property": "C07",
   "status": "proved",
   "theorems": [
    "C07_remove_exact",
    "C07_remove_bounded_area"
   ],
   "note": "Removal by the enclosing acceptor can miss flat boxes, as in C06."
  },
  {
   "property": "C08",
   "status": "proved",
   "theorems": [
    "C08_translation_equivariant"
   ],
   "note": ""
  },
  {
   "property": "C09",
   "status": "proved",
   "theorems": [
    "C09_overall_box_is_hull",
    "C09_overall_box_small",
    "C09_overall_box_encloses",
    "C09_overall_box_is_hull_refuted"
   ],
   "note": "Refutation: 33 boxes of negative coordinates."
  },
  {
   "property": "C10",
   "status": "proved",
   "theorems": [
    "C10_insert_always_defined"
   ],
   "note": "The model returns None on a bad cast; shown unreachable."
  },
  {
   "property": "C11",
   "status": "proved",
   "theorems": [
    "C11_rstar_answers",
    "C11_brute_answers",
    "C11_rstar_equals_brute",
    "C11_rstar_equals_brute_refuted"
   ],
   "note": ""
  },
  {
   "property": "C12",
   "status": "proved",
   "theorems": [
    "C12_rstar_inside",
    "C12_brute_inside",
    "C12_rstar_inside_refuted"
   ],
   "note": ""
  },
  {
   "property": "C13",
   "status": "proved",
   "theorems": [
    "C13_temporal_query",
    "C13_temporal_exact_refuted",
    "C13_temporal_query_out_of_bounds"
   ],
   "note": ""
  },
  {
   "property": "C14",
   "status": "proved",
   "theorems": [
    "C14_construction_reads_uninitialised",
    "C14_construction_defined_if_null"
   ],
   "note": ""
  },
  {
   "property": "C15",
   "status": "proved",
   "theorems": [
    "C15_exist",
    "C15_span",
    "C15_access",
    "C15_push_back",
    "C15_subtraj",
    "C15_empty_refuted"
   ],
   "note": "size_t wrap-around is modelled; debug build (operator[] throws)."
  },
  {
   "property": "C16",
   "status": "proved",
   "theorems": [
    "C16_bijection"
   ],
   "note": "boost::bimap insertion modelled as refused on either conflict; distances are integers."
  },
  {
   "property": "C17",
   "status": "proved",
   "theorems": [
    "C17_contiguous",
    "C17_numbering",
    "C17_first_frame"
   ],
   "note": ""
  },
  {
   "property": "C18",
   "status": "proved",
   "theorems": [
    "C18_shortest_first"
   ],
   "note": "Ties in distance are broken by insertion order, which the statement leaves open."
  },
  {
   "property": "C19",
   "status": "proved",
   "theorems": [
    "C19_outside",
    "C19_absent",
    "C19_index",
    "C19_inverse",
    "C19_make_inverse",
    "C19_frame_sizes"
   ],
   "note": ""
  },
  {
   "property": "C20",
   "status": "proved",
   "theorems": [
    "C20_round_trip",
    "C20_empty_refuted"
   ],
   "note": "Streams modelled character by character (eofbit, failbit, white space, overflow); signs are not accepted by the model."
  },
  {
   "property": "C21",
   "status": "proved",
   "theorems": [
    "C21_round_trip",
    "C21_traj_to_pos"
   ],
   "note": "Up to 2^64 frames."
  },
  {
   "property": "C22",
   "status": "proved",
   "theorems": [
    "C22_bijective",
    "C22_new_frame",
    "C22_shortest_first"
   ],
   "note": "Histories mix both forms of add_Frame; time as unbounded naturals."
  },
  {
   "property": "C23",
   "status": "proved",
   "theorems": [
    "C23_links_outcome",
    "C23_ids_outcome",
    "C23_ids_outcome_empty",
    "C23_shifted_ids_undefined"
   ],
   "note": "Exceptions carry no state in the model: in the code every throw precedes the first mutation (traj.cpp:50-53, traj.hpp:88-107)."
  },
  {
   "property": "C24",
   "status": "proved",
   "theorems": [
    "C24_span",
    "C24_exist",
    "C24_inclusive_span_refuted"
   ],
   "note": "The inclusive reading is refuted by witness."
  },
  {
   "property": "C25",
   "status": "proved",
   "theorems": [
    "C25_selection",
    "C25_separated",
    "C25_euclidean_test_idle",
    "C25_idempotent"
   ],
   "note": "std::sort is any sorted rearrangement; tolerance is a fraction tn/td; distances compared as squares."
  },
  {
   "property": "C26",
   "status": "proved",
   "theorems": [
    "C26_selection",
    "C26_idempotent"
   ],
   "note": "std::sort is any sorted rearrangement."
  },
  {
   "property": "C27",
   "status": "proved",
   "theorems": [
    "C27_selection"
   ],
   "note": "Radii must be non-negative for the box query to find all conflicts."
  },
  {
   "property": "C28",
   "status": "proved",
   "theorems": [
    "C28_partition",
    "C28_push_after_split_refuted"
   ],
   "note": "get_blobs is not modelled. Refutation: push_back after split_clusters."
  },
  {
   "property": "C29",
   "status": "proved",
   "theorems": [
    "C29_tree_links",
    "C29_brute_links",
    "C29_same_criterion_refuted"
   ],
   "note": "Restated: the English expectation that both methods agree is refuted by witness."
  },
  {
   "property": "C30",
   "status": "proved",
   "theorems": [
    "C30_conserves",
    "C30_all_or_nothing",
    "C30_finds_jumps_refuted"
   ],
   "note": "Finding: the iterators of the gradient loop are never advanced."
  },
  {
   "property": "C31",
   "status": "proved",
   "theorems": [
    "C31_neighbours",
    "C31_after_rescaling_refuted",
    "C31_no_index_throws"
   ],
   "note": "Coordinates are integers; after any history. Finding: operator*= leaves the index behind (refuted by witness)."
  },
  {
   "property": "C32",
   "status": "proved",
   "theorems": [
    "C32_nearest",
    "C32_diverges"
   ],
   "note": "The growth of the range by 1.1 is any strictly increasing function; termination by a fuel bound that exists for every input."
  },
  {
   "property": "C33",
   "status": "proved",
   "theorems": [
    "C33_ngb_list",
    "C33_radius",
    "C33_box_scaled"
   ],
   "note": "bondLength is a fraction; the separation is rounded down to the integer grid."
  },
  {
   "property": "C34",
   "status": "proved",
   "theorems": [
    "C34_bond_sets",
    "C34_round_trip",
    "C34_round_trip_back",
    "C34_out_of_range"
   ],
   "note": "std::set<Bond> is a lexicographically sorted list."
  },
  {
   "property": "C35",
   "status": "proved",
   "theorems": [
    "C35_cut",
    "C35_separated",
    "C35_remove_short_range"
   ],
   "note": "Both the algorithmic description and its consequences are proved."
  },
  {
   "property": "C36",
   "status": "proved",
   "theorems": [
    "C36_1551",
    "C36_2331",
    "C36_sp5c"
   ],
   "note": "For all sorted in-range neighbour lists; symmetry needed for 2331 only."
  },
  {
   "property": "C37",
   "status": "proved",
   "theorems": [
    "C37_rings_accepted",
    "C37_small",
    "C37_six_refuted",
    "C37_tiny"
   ],
   "note": "Sizes three to five by case analysis on the adjacency, all sizes for the acceptance of rings."
  },
  {
   "property": "C38",
   "status": "proved",
   "theorems": [
    "C38_inside_noindex",
    "C38_image_coordinates",
    "C38_negative_refuted"
   ],
   "note": "Finding: negative coordinates."
  },
  {
   "property": "C39",
   "status": "proved",
   "theorems": [
    "C39_remove_outside",
    "C39_unsorted_refuted"
   ],
   "note": "For any element type."
  },
  {
   "property": "C40",
   "status": "proved",
   "theorems": [
    "C40_rdf",
    "C40_parallel_never_overcounts",
    "C40_atomic_counts",
    "C40_parallel_counts_refuted"
   ],
   "note": "Distances compared exactly with integers. OpenMP schedules: Race_Model, load and store of the increment interleave freely."
  },
  {
   "property": "C41",
   "status": "proved",
   "theorems": [
    "C41_angles",
    "C41_opposite_refuted",
    "C41_total_weight_refuted"
   ],
   "note": "acos is not modelled: the bin of every pair is arbitrary. Findings: overwriting instead of adding, bin 180."
  },
  {
   "property": "C42",
   "status": "proved",
   "theorems": [
    "C42_second_shell",
    "C42_distance_two_refuted"
   ],
   "note": "Finding: comment 'bonds to the neighbours and to their neighbours' does not hold."
  },
  {
   "property": "C43",
   "status": "proved",
   "theorems": [
    "C43_minimum_image",
    "C43_outside_refuted"
   ],
   "note": "Integer coordinates; halves are compared by doubling, so odd periods are exact."
  },
  {
   "property": "C44",
   "status": "proved",
   "theorems": [
    "C44_box",
    "C44_far_refuted",
    "C44_neighbours",
    "C44_ngb_list",
    "C44_select_inside"
   ],
   "note": "R*-tree index with arbitrary heuristics. A point on a face of the query box may be missed, as in C31's index."
  },
  {
   "property": "C45",
   "status": "proved",
   "theorems": [
    "C45_sliding_mean",
    "C45_no_averaging",
    "C45_short_movie_refuted"
   ],
   "note": "For any type of values, any addition and any null test, so rounding is covered. Finding: movies not longer than averaging/2 are never normalised."
  },
  {
   "property": "C46",
   "status": "proved",
   "theorems": [
    "C46_components",
    "C46_partition",
    "C46_asymmetric_refuted",
    "C46_all"
   ],
   "note": "Recursion depth bounded by the population (fuel shown sufficient); stack exhaustion not modelled."
  },
  {
   "property": "C47",
   "status": "proved",
   "theorems": [
    "C47_clusters"
   ],
   "note": "Uses the theorems on TrajMap and TrajIndex (C16-C19). Distances are rationals scaled to integers."
  },
  {
   "property": "C48",
   "status": "proved",
   "theorems": [
    "C48_select_spanning",
    "C48_out_of_range_refuted"
   ],
   "note": "The branch with a spatio-temporal index is C11's and C13's. Finding: no bounds check."
  },
  {
   "property": "C49",
   "status": "proved",
   "theorems": [
    "C49_msd",
    "C49_msd_origins",
    "C49_msd_windows",
    "C49_msd_windows_refuted",
    "C49_non_gaussian_refuted",
    "C49_isf",
    "C49_isf_late_start_refuted",
    "C49_self_isf",
    "C49_self_isf_greedy_refuted",
    "C49_place"
   ],
   "note": "For any types of values, sums, divisions and waves, so rounding is covered; unprotected parallel sums taken as sequential. Findings: five refuted expectations."
  },
  {
   "property": "C50",
   "status": "proved",
   "theorems": [
    "C50_cages",
    "C50_last_step_lost_refuted",
    "C50_cage_index"
   ],
   "note": "Separations of the sub-intervals are arbitrary. Finding: the last step of a split trajectory is lost (its entry in the inverse stays 0)."
  },
  {
   "property": "C51",
   "status": "proved",
   "theorems": [
    "C51_drift",
    "C51_remove_drift",
    "C51_without_index",
    "C51_single_trajectory_refuted",
    "C51_end_ignored_refuted",
    "C51_absent"
   ],
   "note": "Coordinates are rationals, one axis at a time. The unprotected parallel sum is taken as sequential (C40's race model shows what the race does). Findings: single common trajectory, ignored end."
  },
  {
   "property": "C52",
   "status": "proved",
   "theorems": [
    "C52_lost_neighbours",
    "C52_number_lost"
   ],
   "note": "Times below 2^31 (int arithmetic in the code)."
  },
  {
   "property": "C53",
   "status": "proved",
   "theorems": [
    "C53_time_average",
    "C53_sliding_average",
    "C53_long_window_refuted"
   ],
   "note": "For any type of values, addition and division, so rounding is covered."
  },
  {
   "property": "C54",
   "status": "proved",
   "theorems": [
    "C54_names",
    "C54_own_name",
    "C54_parse_back",
    "C54_change_ext",
    "C54_add_postfix",
    "C54_add_postfix_ext",
    "C54_head",
    "C54_dot_in_head_refuted",
    "C54_distinct",
    "C54_no_extension_refuted",
    "C54_get0th_refuted",
    "C54_get0th"
   ],
   "note": "Characters as 8-bit codes; boost::format is modelled for patterns without percent sign only. Findings: names without extension are refused, dot in the directory."
  },
  {
   "property": "C55",
   "status": "proved",
   "theorems": [
    "C55_storage_bijection",
    "C55_positions",
    "C55_negative_orders"
   ],
   "note": "Any type of numbers."
  },
  {
   "property": "C56",
   "status": "proved",
   "theorems": [
    "C56_in_range",
    "C56_symmetric",
    "C56_distinct",
    "C56_all_used"
   ],
   "note": "Finite domain evaluated completely by the kernel; the symmetry is proved for all integers."
  },
  {
   "property": "C57",
   "status": "proved",
   "theorems": [
    "C57_values",
    "C57_invarients_sum",
    "C57_same_refuted",
    "C57_real_refuted"
   ],
   "note": "Over any commutative ring, exact arithmetic; the division by the norm to the power 3/2 is a parameter. Findings: the two functions disagree; getWl is not real."
  },
  {
   "property": "C58",
   "status": "proved",
   "theorems": [
    "C58_binary",
    "C58_text",
    "C58_string_refuted"
   ],
   "note": "For any number conversion that reads back what it writes. Finding: the string constructor overruns its array."
  },
  {
   "property": "C59",
   "status": "proved",
   "theorems": [
    "C59_symmetric",
    "C59_value",
    "C59_norm",
    "C59_cauchy_schwarz",
    "C59_imaginary_refuted"
   ],
   "note": "Over any commutative ring with a notion of non negative closed under sums and containing squares; exact arithmetic. Finding: imaginary m=0 coefficient."
  },
  {
   "property": "C60",
   "status": "proved",
   "theorems": [
    "C60_minima2_exact",
    "C60_border_refuted"
   ],
   "note": "Pixel values are only compared: integers; the hessian ratio test and the test of being too close to zero are parameters. Finding: border pixels."
  },
  {
   "property": "C61",
   "status": "proved",
   "theorems": [
    "C61_minima1_exact",
    "C61_small_sizes_refuted"
   ],
   "note": "As C60. Finding: misaligned reads for sizes below 2 (blurring radius about 1)."
  },
  {
   "property": "C62",
   "status": "proved",
   "theorems": [
    "C62_window",
    "C62_outside_refuted"
   ],
   "note": "Planes identified by their number; z0 and slots as in the code. Finding: reads outside the image."
  },
  {
   "property": "C63",
   "status": "proved",
   "theorems": [
    "C63_octaves2",
    "C63_octaves1",
    "C63_octaves3",
    "C63_downscale2",
    "C63_downscale1",
    "C63_downscale3"
   ],
   "note": "Pixel arithmetic is a parameter; int dimensions without overflow. The reserve() hint computed with log is not modelled."
  },
  {
   "property": "C64",
   "status": "proved",
   "theorems": [
    "C64_upscale1",
    "C64_upscale2",
    "C64_upscale3",
    "C64_upscale3_refuted",
    "C64_deeper_refuted"
   ],
   "note": "Pixel arithmetic is a parameter (0.5*(0+0)=0 is used in 3D); Gaussian half-blur before the upscaling not modelled. Findings: odd pixels of 3D lines, deeper volume."
  },
  {
   "property": "C65",
   "status": "proved",
   "theorems": [
    "C65_slice",
    "C65_volume",
    "C65_concatenation",
    "C65_out_of_range",
    "C65_slice_number_refuted",
    "C65_failure_silent",
    "C65_recovery_refuted",
    "C65_large_refuted",
    "C65_depth_refuted",
    "C65_locator",
    "C65_time_step_refuted",
    "C65_square",
    "C65_rectangular_refuted",
    "C65_channels_refuted"
   ],
   "note": "std::ifstream is modelled by position and failbit; XML parsing gives the dimensions in any order; tracking is left out. Findings: slice number unchecked, sticky failure, int accumulator, 16-bit pixels, locator always reads time step 0, non-square slices, channels."
  },
  {
   "property": "C66",
   "status": "proved",
   "theorems": [
    "C66_blocks",
    "C66_data",
    "C66_terminates",
    "C66_inside",
    "C66_wrap_refuted",
    "C66_cut_data",
    "C66_hangs_refuted"
   ],
   "note": "TinyXML parsing of the header is an oracle; little-endian machine; reads past the end give Uninitialised. Findings: endless loop on truncated files, wrap-around of the size check."
  },
  {
   "property": "C67",
   "status": "proved",
   "theorems": [
    "C67_fill",
    "C67_fill_uchar",
    "C67_mean_refuted",
    "C67_short",
    "C67_slice",
    "C67_unpad",
    "C67_unpad_twice",
    "C67_round_trip",
    "C67_copy"
   ],
   "note": "C67_mean_refuted: fillImage adds to an uninitialised sum. C67_short: short input is undefined behaviour."
  },
  {
   "property": "C68",
   "status": "proved",
   "theorems": [
    "C68_even",
    "C68_symmetric",
    "C68_kept",
    "C68_band_pass",
    "C68_outside",
    "C68_odd",
    "C68_odd_refuted",
    "C68_three_refuted",
    "C68_three_band_refuted"
   ],
   "note": "C68_odd_refuted, C68_three_refuted, C68_three_band_refuted: odd dimensions are mirrored wrongly. The limits of each drawn line, computed in floating point from the radii, are parameters."
  },
  {
   "property": "C69",
   "status": "proved",
   "theorems": [
    "C69_total",
    "C69_marked",
    "C69_apart",
    "C69_found",
    "C69_reuse",
    "C69_small",
    "C69_plateau_refuted",
    "C69_window",
    "C69_window_refuted"
   ],
   "note": "Comparison of pixels and threshold are parameters. Findings: C69_plateau_refuted, C69_window_refuted. The subpixel formula itself is not modelled."
  },
  {
   "property": "C70",
   "status": "proved",
   "theorems": [
    "C70_cut",
    "C70_brightest",
    "C70_valley",
    "C70_endless",
    "C70_endless_refuted",
    "C70_empty_refuted",
    "C70_equal_refuted"
   ],
   "note": "Intensities are integers with exact arithmetic instead of float. Findings: C70_endless_refuted, C70_empty_refuted, C70_equal_refuted."
  },
  {
   "property": "C71",
   "status": "proved",
   "theorems": [
    "C71_coordinates",
    "C71_convolve",
    "C71_convolve_axis",
    "C71_short_refuted",
    "C71_empty_refuted",
    "C71_spectrum",
    "C71_spectrum_axis"
   ],
   "note": "Fourier transforms, window and sums are parameters. Findings: C71_short_refuted, C71_empty_refuted."
  },
  {
   "property": "C72",
   "status": "proved",
   "theorems": [
    "C72_kernel",
    "C72_throws",
    "C72_usable",
    "C72_frequency_refuted"
   ],
   "note": "Size ratio is a non-negative fraction with exact arithmetic instead of double. Finding: C72_frequency_refuted."
  },
  {
   "property": "C73",
   "status": "proved",
   "theorems": [
    "C73_velocities",
    "C73_no_window_refuted"
   ],
   "note": "For any type of vectors. Finding: h = 0."
  },
  {
   "property": "C74",
   "status": "proved",
   "theorems": [
    "C74_table_is_wigner_3j",
    "C74_radicands"
   ],
   "note": "Exact rational arithmetic; c*sqrt(r) compared by square and sign."
  },
  {
   "property": "C75",
   "status": "proved",
   "theorems": [
    "C75_rotate",
    "C75_reflect",
    "C75_identity"
   ],
   "note": "Any type of numbers, so rounding is covered for the two formulas; the identity is over a commutative ring with exact division and root. The angles computed from the axis are a parameter."
  },
  {
   "property": "C76",
   "status": "proved",
   "theorems": [
    "C76_minima3_exact"
   ],
   "note": "As C60; the difference of Gaussians is any function of two values. The parallel loop is run sequentially (it only appends under a lock; centers and centers_no_subpix use different locks, so their orders may differ between threads). The formula of the shifts is not modelled, only its inputs."
  },
  {
   "property": "C77",
   "status": "proved",
   "theorems": [
    "C77_one",
    "C77_all",
    "C77_isolated_refuted",
    "C77_reused_refuted",
    "C77_surface",
    "C77_both",
    "C77_selection",
    "C77_coarse",
    "C77_flip",
    "C77_outside",
    "C77_outside_refuted"
   ],
   "note": "Coefficients, harmonics, half turns and divisions are parameters (so floating point is covered). Findings: C77_isolated_refuted, C77_reused_refuted, C77_outside_refuted."
  },
  {
   "property": "C78",
   "status": "proved",
   "theorems": [
    "C78_round_trip",
    "C78_read",
    "C78_truncated_refuted",
    "C78_empty"
   ],
   "note": "Doubles are any type with a printer giving one word and a parser reading it back up to a rounding. Finding: C78_truncated_refuted."
  },
  {
   "property": "C79",
   "status": "proved",
   "theorems": [
    "C79_vtk_counts",
    "C79_field_refuted",
    "C79_bonds_round_trip",
    "C79_bonds_load",
    "C79_bonds_total"
   ],
   "note": "Unsigned numbers below 2^64, no signs. Finding: C79_field_refuted."
  },
  {
   "property": "C80",
   "status": "proved",
   "theorems": [
    "C80_qlm_round_trip",
    "C80_qlm_other",
    "C80_q6m_refuted",
    "C80_q6m",
    "C80_cloud"
   ],
   "note": "As C78; a word is converted entirely or makes the stream fail. Findings: C80_q6m_refuted and the out-of-bounds cases of C80_qlm_other and C80_cloud."
  },
  {
   "property": "C81",
   "status": "proved",
   "theorems": [
    "C81_link",
    "C81_followed",
    "C81_no_frame_refuted",
    "C81_rescaled_refuted",
    "C81_order"
   ],
   "note": "Distances are exact squared integers; the spatial index is the R*-tree model with any heuristics. Findings: C81_no_frame_refuted, C81_rescaled_refuted."
  },
  {
   "property": "C82",
   "status": "proved",
   "theorems": [
    "C82_drift",
    "C82_relative",
    "C82_sign",
    "C82_no_file",
    "C82_negative_refuted",
    "C82_offset_refuted",
    "C82_then_link"
   ],
   "note": "Displacements and coordinates are integers with exact arithmetic. Findings: C82_negative_refuted, C82_offset_refuted."
  },
  {
   "property": "C83",
   "status": "proved",
   "theorems": [
    "C83_windows",
    "C83_axes",
    "C83_empty_window_refuted",
    "C83_default_refuted",
    "C83_make_dynamics_refuted",
    "C83_mean_of_axes",
    "C83_make_dynamics_all_refuted",
    "C83_no_frame"
   ],
   "note": "Exact arithmetic over an abstract ring of numbers as for C52. Findings: C83_empty_window_refuted, C83_default_refuted, C83_make_dynamics_refuted, C83_make_dynamics_all_refuted."
  },
  {
   "property": "C84",
   "status": "proved",
   "theorems": [
    "C84_square_velocity",
    "C84_square_displacement_refuted"
   ],
   "note": "Exact arithmetic. Finding: C84_square_displacement_refuted."
  },
  {
   "property": "C85",
   "status": "proved",
   "theorems": [
    "C85_round_trip",
    "C85_missing",
    "C85_missing_frame",
    "C85_short_refuted",
    "C85_space_refuted"
   ],
   "note": "Number printing is a codec with one rounding, as for C78. Findings: C85_short_refuted, C85_space_refuted."
  },
  {
   "property": "C86",
   "status": "proved",
   "theorems": [
    "C86_density",
    "C86_density_index",
    "C86_translation",
    "C86_empty_refuted",
    "C86_rescaled_refuted",
    "C86_negative_refuted"
   ],
   "note": "Exact integer coordinates. Findings: C86_empty_refuted, C86_rescaled_refuted, C86_negative_refuted."
  },
  {
   "property": "C87",
   "status": "proved",
   "theorems": [
    "C87_rdf",
    "C87_no_bin_refuted",
    "C87_gl"
   ],
   "note": "The arithmetic of doubles and the norm are parameters; execution by one thread (the parallel loop is in C40's race model). Finding: C87_no_bin_refuted."
  },
  {
   "property": "C88",
   "status": "proved",
   "theorems": [
    "C88_names",
    "C88_own_name",
    "C88_missing",
    "C88_no_extension",
    "C88_between_refuted",
    "C88_order_refuted",
    "C88_image",
    "C88_flat",
    "C88_missing_file",
    "C88_size_refuted"
   ],
   "note": "CImg loading is an oracle from names to pictures; boost::format with a percent sign in the name is not modelled. Findings: C88_between_refuted, C88_order_refuted, C88_flat (mean not initialised), C88_size_refuted. The member length of SerieTracker is never set, so that end() and reachedEnd() are undefined (not in the model)."
  },
  {
   "property": "C89",
   "status": "proved",
   "theorems": [
    "C89_steps",
    "C89_beyond",
    "C89_end",
    "C89_channels_refuted"
   ],
   "note": "The stream buffer iterator is a byte position. Finding: C89_channels_refuted."
  },
  {
   "property": "C90",
   "status": "proved",
   "theorems": [
    "C90_neighbourhood",
    "C90_size",
    "C90_half_refuted",
    "C90_outside_refuted"
   ],
   "note": "Exact lengths. Findings: C90_half_refuted, C90_outside_refuted."
  },
  {
   "property": "C91",
   "status": "proved",
   "theorems": [
    "C91_radius",
    "C91_overrun_refuted",
    "C91_margin_refuted",
    "C91_first_bin_refuted",
    "C91_distance"
   ],
   "note": "Exact distances (integer square root); the Fourier smoothing and the arithmetic on means are parameters; the order of doubles is a strict weak order (no NaN). Findings: C91_overrun_refuted, C91_margin_refuted, C91_first_bin_refuted."
  },
  {
   "property": "C92",
   "status": "proved",
   "theorems": [
    "C92_trajectory",
    "C92_cluster",
    "C92_cluster_refused",
    "C92_delta",
    "C92_max_box",
    "C92_max_box_refuted",
    "C92_most",
    "C92_empty_refuted"
   ],
   "note": "Exact integer coordinates. Findings: C92_max_box_refuted, C92_empty_refuted."
  },
  {
   "property": "C93",
   "status": "proved",
   "theorems": [
    "C93_save"
   ],
   "note": "The text is given as words and lines; a failing write is not modelled."
  },
  {
   "property": "C94",
   "status": "proved",
   "theorems": [
    "C94_order",
    "C94_smoothed",
    "C94_neighbour_refuted",
    "C94_twice_refuted"
   ],
   "note": "Arithmetic on orders is a parameter. Findings: C94_neighbour_refuted, C94_twice_refuted."
  },
  {
   "property": "C95",
   "status": "proved",
   "theorems": [
    "C95_kernel",
    "C95_each",
    "C95_rows",
    "C95_close_rows",
    "C95_stable",
    "C95_history_refuted",
    "C95_percent_refuted"
   ],
   "note": "Exact rational sigmas. Findings: C95_history_refuted, C95_percent_refuted."
  },
  {
   "property": "C96",
   "status": "proved",
   "theorems": [
    "C96_square",
    "C96_inside",
    "C96_wide_refuted",
    "C96_right_refuted",
    "C96_tall_refuted",
    "C96_border_refuted",
    "C96_volume",
    "C96_mirror_unique",
    "C96_line",
    "C96_refused",
    "C96_layer",
    "C96_scale"
   ],
   "note": "Exact values. Findings: C96_wide_refuted, C96_right_refuted, C96_tall_refuted, C96_border_refuted."
  },
  {
   "property": "C97",
   "status": "proved",
   "theorems": [
    "C97_position",
    "C97_border_refuted",
    "C97_far_refuted",
    "C97_line",
    "C97_line_intensity",
    "C97_line_refuted",
    "C97_scale",
    "C97_scale_exact",
    "C97_first_layer",
    "C97_scale_nan_refuted",
    "C97_volume",
    "C97_volume_border_refuted",
    "C97_volume_scale",
    "C97_volume_nan_refuted"
   ],
   "note": "Exact values; the scale in 1D (an empirical formula) is not modelled. Findings: C97_border_refuted, C97_far_refuted, C97_line_refuted, C97_scale_nan_refuted, C97_volume_nan_refuted. C97_volume_border_refuted."
  },
  {
   "property": "C98",
   "status": "proved",
   "theorems": [
    "C98_removes",
    "C98_same_size",
    "C98_reversed_refuted"
   ],
   "note": "2D version; the call is commented out in the pipeline but public. Finding: C98_reversed_refuted."
  },
  {
   "property": "C99",
   "status": "proved",
   "theorems": [
    "C99_continuous",
    "C99_centres",
    "C99_number",
    "C99_none",
    "C99_seam_pixel",
    "C99_seam_pixel_refuted"
   ],
   "note": "Arithmetic of radii is a parameter with the laws of powers of two. Finding: C99_seam_pixel_refuted."
  },
  {
   "property": "C100",
   "status": "proved",
   "theorems": [
    "C100_memory",
    "C100_layers_refuted",
    "C100_overflow_refuted"
   ],
   "note": "size_t products are exact. Findings: C100_layers_refuted, C100_overflow_refuted."
  },
  {
   "property": "C101",
   "status": "proved",
   "theorems": [
    "C101_sphere",
    "C101_negative",
    "C101_negative_refuted"
   ],
   "note": "Exact distances. Finding: C101_negative_refuted."
  },
  {
   "property": "C102",
   "status": "proved",
   "theorems": [
    "C102_mean",
    "C102_uniform",
    "C102_outside",
    "C102_negative_refuted",
    "C102_float_refuted"
   ],
   "note": "Exact sums; no overflow of int. Findings: C102_negative_refuted, C102_float_refuted."
  },
  {
   "property": "C103",
   "status": "proved",
   "theorems": [
    "C103_post",
    "C103_dynamic",
    "C103_reading",
    "C103_missing_file",
    "C103_no_bond_refuted",
    "C103_interval_refuted",
    "C103_lost_refuted",
    "C103_lines"
   ],
   "note": "Findings: C103_no_bond_refuted, C103_interval_refuted, C103_lost_refuted."
  },
  {
   "property": "C104",
   "status": "proved",
   "theorems": [
    "C104_clusters",
    "C104_sevens",
    "C104_self_refuted"
   ],
   "note": "Finding: C104_self_refuted."
  },
  {
   "property": "C105",
   "status": "proved",
   "theorems": [
    "C105_rows",
    "C105_mean_refuted",
    "C105_no_file"
   ],
   "note": "Exact values. Finding: C105_mean_refuted."
  },
  {
   "property": "C106",
   "status": "proved",
   "theorems": [
    "C106_first_minimum",
    "C106_endless_refuted",
    "C106_again",
    "C106_length",
    "C106_after_total_refuted",
    "C106_bonds_given",
    "C106_bonds_default_refuted"
   ],
   "note": "Exact values; numbers in files are read back exactly. Findings: C106_endless_refuted, C106_after_total_refuted, C106_bonds_default_refuted."
  },
  {
   "property": "C107",
   "status": "proved",
   "theorems": [
    "C107_rows",
    "C107_each_pair_once",
    "C107_one_row",
    "C107_modes",
    "C107_range_refuted",
    "C107_null_centre_refuted"
   ],
   "note": "Exact distances (see C108 for rounding). Findings: C107_range_refuted, C107_null_centre_refuted."
  },
  {
   "property": "C108",
   "status": "proved",
   "theorems": [
    "C108_counts",
    "C108_one_past",
    "C108_right_bin",
    "C108_inside",
    "C108_double_refuted",
    "C108_double_bin_refuted",
    "C108_double_arithmetic"
   ],
   "note": "No overflow nor underflow in the general statements. Doubles by SpecFloat (no axiom). Findings: C108_double_refuted, C108_double_bin_refuted."
  },
  {
   "property": "C109",
   "status": "proved",
   "theorems": [
    "C109_some_of_the_values",
    "C109_all_the_values_if_atomic",
    "C109_drift",
    "C109_msd_never_above",
    "C109_drift_refuted",
    "C109_msd_refuted",
    "C109_isf",
    "C109_isf_refuted"
   ],
   "note": "Sequentially consistent memory, exact rationals, one axis (the three are three cells). Findings: C109_drift_refuted, C109_msd_refuted, C109_isf_refuted."
  },
  {
   "property": "C110",
   "status": "proved",
   "theorems": [
    "C110_own_cells",
    "C110_translate",
    "C110_fill",
    "C110_waves",
    "C110_always_ends"
   ],
   "note": "Sequentially consistent memory."
  },
  {
   "property": "C111",
   "status": "proved",
   "theorems": [
    "C111_private",
    "C111_critical",
    "C111_one_thread",
    "C111_shared_refuted",
    "C111_shared_throws_refuted"
   ],
   "note": "clear, % and str of boost::format taken as atomic. Findings: C111_shared_refuted, C111_shared_throws_refuted."
  },
  {
   "property": "C112",
   "status": "proved",
   "theorems": [
    "C112_lines",
    "C112_sections_disjoint",
    "C112_ends",
    "C112_same_if_divides",
    "C112_last_columns_refuted",
    "C112_too_many_threads_refuted",
    "C112_planes",
    "C112_volume",
    "C112_sequential",
    "C112_same_volume"
   ],
   "note": "Sequentially consistent memory; blur of a line taken as a function. Findings: C112_last_columns_refuted, C112_too_many_threads_refuted."
  },
  {
   "property": "C113",
   "status": "proved",
   "theorems": [
    "C113_fill",
    "C113_preblur",
    "C113_volume",
    "C113_preblur_volume",
    "C113_throws",
    "C113_differences_add_up"
   ],
   "note": "Blurs and differences of OpenCV taken as functions of images."
  },
  {
   "property": "C114",
   "status": "proved",
   "theorems": [
    "C114_octaves",
    "C114_float_refuted",
    "C114_history",
    "C114_throws",
    "C114_twice_refuted",
    "C114_planes_refuted"
   ],
   "note": "Pixel conversions exact. Findings: C114_float_refuted, C114_twice_refuted, C114_planes_refuted."
  },
  {
   "property": "C115",
   "status": "proved",
   "theorems": [
    "C115_minima2",
    "C115_minima1",
    "C115_minima3",
    "C115_octave2",
    "C115_octave1",
    "C115_first_octave_refuted"
   ],
   "note": "Exact arithmetic (fixed point pixels), blurs assumed to commute with a change of light. Finding: C115_first_octave_refuted."
  },
  {
   "property": "C116",
   "status": "proved",
   "theorems": [
    "C116_deconv",
    "C116_kernel",
    "C116_throws",
    "C116_deconvolution",
    "C116_no_negative",
    "C116_plain",
    "C116_multiscale",
    "C116_single_octave_refuted"
   ],
   "note": "Fourier transforms and blurs taken as functions. Finding: C116_single_octave_refuted."
  },
  {
   "property": "C117",
   "status": "proved",
   "theorems": [
    "C117_signal",
    "C117_blobs",
    "C117_past_end_refuted",
    "C117_between",
    "C117_last_refuted"
   ],
   "note": "Exact rational coordinates; the 1D finder is an oracle. Findings: C117_past_end_refuted, C117_last_refuted."
  },
  {
   "property": "C118",
   "status": "proved",
   "theorems": [
    "C118_any_file",
    "C118_own_file",
    "C118_first_row_refuted",
    "C118_several_sets",
    "C118_other_file_refuted"
   ],
   "note": "Numbers by an abstract codec; steps below 2^64. Findings: C118_first_row_refuted, C118_other_file_refuted."
  },
  {
   "property": "C119",
   "status": "proved",
   "theorems": [
    "C119_frequency",
    "C119_never_ends_refuted",
    "C119_short_time_refuted"
   ],
   "note": "Exact rationals, a division by zero is None. Findings: C119_never_ends_refuted, C119_short_time_refuted."
  },
  {
   "property": "C120",
   "status": "proved",
   "theorems": [
    "C120_spans",
    "C120_long_cage_refuted",
    "C120_reload",
    "C120_reload_refuted"
   ],
   "note": "Findings: C120_long_cage_refuted, C120_reload_refuted."
  },
  {
   "property": "C121",
   "status": "proved",
   "theorems": [
    "C121_recovers",
    "C121_all_but_last",
    "C121_never_repaired",
    "C121_last_file_refuted",
    "C121_velocity_hole_refuted",
    "C121_scattering_refuted",
    "C121_other_interval_refuted"
   ],
   "note": "What the stages compute is taken as functions of the inputs; files get to the disk character by character. Findings: C121_last_file_refuted, C121_velocity_hole_refuted, C121_scattering_refuted, C121_other_interval_refuted."
  },
  {
   "property": "C122",
   "status": "proved",
   "theorems": [
    "C122_columns",
    "C122_too_many",
    "C122_phi",
    "C122_reload",
    "C122_cage_fields_refuted",
    "C122_phi_refuted",
    "C122_missing_file_refuted",
    "C122_whole_cage_refuted"
   ],
   "note": "Exact rationals, any value for pi. Findings: C122_phi_refuted, C122_missing_file_refuted, C122_cage_fields_refuted, C122_whole_cage_refuted."
  },
  {
   "property": "C123",
   "status": "proved",
   "theorems": [
    "C123_window",
    "C123_lost_refuted"
   ],
   "note": "Counts are integers. Finding: C123_lost_refuted."
  },
  {
   "property": "C124",
   "status": "proved",
   "theorems": [
    "C124_same",
    "C124_coarse",
    "C124_values",
    "C124_slab_refuted",
    "C124_wall_refuted"
   ],
   "note": "Coordinates are exact; the heuristics of the tree are those of C17 in the cases. Findings: C124_slab_refuted, C124_wall_refuted."
  },
  {
   "property": "C125",
   "status": "proved",
   "theorems": [
    "C125_damaged",
    "C125_loaded",
    "C125_missing",
    "C125_again_refuted",
    "C125_range_refuted"
   ],
   "note": "Integer coordinates. Findings: C125_again_refuted, C125_range_refuted."
  },
  {
   "property": "C126",
   "status": "proved",
   "theorems": [
    "C126_files",
    "C126_stops",
    "C126_names",
    "C126_negative_refuted",
    "C126_msd",
    "C126_isf",
    "C126_late_refuted",
    "C126_no_average_refuted",
    "C126_few_arguments"
   ],
   "note": "The results of atoi are the arguments. Findings: C126_late_refuted, C126_no_average_refuted, C126_negative_refuted."
  },
  {
   "property": "C127",
   "status": "proved",
   "theorems": [
    "C127_similarities",
    "C127_ends",
    "C127_out_of_range"
   ],
   "note": "Order parameters, their product and the comparison with one half are parameters."
  },
  {
   "property": "C128",
   "status": "proved",
   "theorems": [
    "C128_same_name",
    "C128_reload",
    "C128_names",
    "C128_surf_refuted",
    "C128_fields",
    "C128_syntax_refuted",
    "C128_no_time_refuted",
    "C128_column_refuted"
   ],
   "note": "Printing and parsing of doubles as a codec up to rounding. Findings: C128_column_refuted, C128_surf_refuted, C128_syntax_refuted, C128_no_time_refuted."
  },
  {
   "property": "C129",
   "status": "proved",
   "theorems": [
    "C129_file",
    "C129_twice",
    "C129_series",
    "C129_missing",
    "C129_again",
    "C129_in_place",
    "C129_names",
    "C129_rounding_refuted",
    "C129_crash_refuted",
    "C129_options_refuted",
    "C129_one_file",
    "C129_help"
   ],
   "note": "Integer coordinates; printing as a codec up to rounding. Findings: C129_rounding_refuted, C129_crash_refuted, C129_options_refuted."
  },
  {
   "property": "C130",
   "status": "proved",
   "theorems": [
    "C130_removes",
    "C130_reversed_refuted",
    "C130_same_size"
   ],
   "note": "One and three dimensions together, for any number of coordinates. Finding: C130_reversed_refuted."
  },
  {
   "property": "C131",
   "status": "proved",
   "theorems": [
    "C131_linker",
    "C131_displaced",
    "C131_again",
    "C131_missing",
    "C131_folders_refuted",
    "C131_arguments",
    "C131_arguments_refuted",
    "C131_no_step_refuted",
    "C131_displ_refuted"
   ],
   "note": "Integer coordinates; printing as a codec up to rounding; argument conversion (atoi, atof) as oracles. Findings: C131_displ_refuted, C131_folders_refuted, C131_arguments_refuted, C131_no_step_refuted."
  },
  {
   "property": "C132",
   "status": "proved",
   "theorems": [
    "C132_cancels",
    "C132_again",
    "C132_drift_file",
    "C132_modes",
    "C132_same_dynamics",
    "C132_msd",
    "C132_single_refuted",
    "C132_default_refuted",
    "C132_no_frame_refuted",
    "C132_square"
   ],
   "note": "Rational coordinates, sequential sums, no index. Findings: C132_single_refuted, C132_default_refuted, C132_no_frame_refuted. The dynamics are an oracle with an explicit hypothesis (they depend on differences of positions only), shown to hold of the mean square displacement."
  },
  {
   "property": "C133",
   "status": "proved",
   "theorems": [
    "C133_blurs",
    "C133_between",
    "C133_iterative",
    "C133_sizes",
    "C133_radius",
    "C133_scale_of",
    "C133_negative",
    "C133_profile"
   ],
   "note": "Doubles taken as real numbers; uses the axioms of Coq.Reals (listed in DESIGN.md). The sampling of the image in pixels is not modelled: the response is that of a ball in a continuous space, at its centre."
  },
  {
   "property": "C134",
   "status": "proved",
   "theorems": [
    "C134_drift",
    "C134_box",
    "C134_files",
    "C134_no_average",
    "C134_short_refuted",
    "C134_space_refuted",
    "C134_missing",
    "C134_names",
    "C134_again",
    "C134_origin_refuted"
   ],
   "note": "Rational coordinates; printing and parsing of doubles by any lossless codec; mkdir through system() as a word splitting of the command. Findings: window longer than the movie, positions at the origin, folder names with spaces."
  },
  {
   "property": "C135",
   "status": "proved",
   "theorems": [
    "C135_spherical",
    "C135_colatitude_refuted",
    "C135_bond",
    "C135_bonds",
    "C135_direction",
    "C135_axis",
    "C135_twice",
    "C135_vertical",
    "C135_products",
    "C135_reflect",
    "C135_reflect_refuted",
    "C135_rodrigues"
   ],
   "note": "Real numbers instead of doubles; boost::math::spherical_harmonic is trusted to compute the function harmonic of Euler_Spec. Findings: cartesian2spherical gives colatitude 0 to the negative z axis, reflect does not depend on the azimuth of the normal."
  },
  {
   "property": "C136",
   "status": "proved",
   "theorems": [
    "C136_empty",
    "C136_mean",
    "C136_second",
    "C136_between",
    "C136_ends",
    "C136_iterations",
    "C136_walls_refuted",
    "C136_read",
    "C136_read_refuted",
    "C136_outside",
    "C136_outside_refuted",
    "C136_bonds",
    "C136_bonds_refuted",
    "C136_box",
    "C136_files",
    "C136_single",
    "C136_folder_refuted",
    "C136_names"
   ],
   "note": "Exact rationals instead of doubles, numbers instead of their text; voro++ is an oracle giving the cells (trusted), the periodic build is not modelled. Findings: the loop never ends when every cell is near the walls, no cell at all or a particle without cell is undefined behaviour, the walls of a particle are written as bonds when it has no neighbour of smaller index, a single file whose name has no \"_t\" fails and \"_t\" in the folder is renamed."
  },
  {
   "property": "C137",
   "status": "proved",
   "theorems": [
    "C137_list",
    "C137_track",
    "C137_parabola",
    "C137_light",
    "C137_mirror",
    "C137_near",
    "C137_far_refuted",
    "C137_flat_refuted",
    "C137_intensity",
    "C137_intensity_refuted",
    "C137_iterate",
    "C137_past"
   ],
   "note": "Arithmetic of the coordinates and pixels on rationals with infinities and NaN where the denominator is zero; rounding left out. Findings: a summit at the edge of a terrace is placed out of its window, even out of the image; five equal pixels give a NaN coordinate that is kept; intensities are read at the integer part, so at the pixel before the summit when the shift is negative."
  },
  {
   "property": "C138",
   "status": "proved",
   "theorems": [
    "C138_first_failure",
    "C138_traj",
    "C138_digits",
    "C138_cage",
    "C138_header",
    "C138_missing",
    "C138_unread_refuted",
    "C138_long_refuted",
    "C138_steps",
    "C138_stops",
    "C138_cage_refuted"
   ],
   "note": "Numbers are printed and read by a codec with a rounding; names of files and the previous stages are in C121 to C123. Findings: a word like nan stops the reading of a file, all following particles silently get null values; missing files give null values; longer files write out of bounds; cage2vtk reads four columns as eight."
  },
  {
   "property": "C139",
   "status": "proved",
   "theorems": [
    "C139_first",
    "C139_loaded",
    "C139_again",
    "C139_coarse",
    "C139_periodic",
    "C139_series",
    "C139_series_distinct",
    "C139_series_padded_refuted",
    "C139_coarse_refuted"
   ],
   "note": "The coefficients are abstract (C77, C133, C135 say what they are); the bond length and the margins are rounded down in the same way; harmonics of a bond are assumed not to depend on its direction. Finding: the second margin exceeds the first by half of the bond length only, so that coarse grained values of particles kept for it may average over neighbours that were reset to zero; the periodic series does not find files numbered with leading zeros."
  },
  {
   "property": "C140",
   "status": "proved",
   "theorems": [
    "C140_first",
    "C140_loaded",
    "C140_with_boo",
    "C140_periodic",
    "C140_isolated_refuted"
   ],
   "note": "Coefficients, their rotation around a bond and their product are abstract (C77, C127, C133, C135); a printed double is assumed to be a word. Finding: a particle kept without neighbours gets the null value over zero (not a number), where boo writes the null value."
  },
  {
   "property": "C141",
   "status": "proved",
   "theorems": [
    "C141_plain",
    "C141_no_centre_refuted",
    "C141_periodic",
    "C141_images_refuted",
    "C141_narrow_refuted"
   ],
   "note": "Doubles abstract, the rounding of bins is C108; the cut-off and the abscissae are given. Findings: with periodic boundary conditions getRdf still selects the centres with the index, away from the faces, so that no image is ever counted and only the density differs; without any centre each value is zero over zero; an axis narrower than twice the range is not cut."
  },
  {
   "property": "C142",
   "status": "proved",
   "theorems": [
    "C142_line",
    "C142_line_contrast",
    "C142_first_layer",
    "C142_line_far_refuted",
    "C142_line_nan_refuted",
    "C142_volume",
    "C142_volume_ends",
    "C142_volume_law",
    "C142_volume_contrast",
    "C142_volume_nan_refuted"
   ],
   "note": "Exact rationals; the irrational power of 2 in the 1D correction is a given number. Findings: on a line the scale is not saturated and may be any number of layers away; uniform responses give not-a-number, on a line and in a volume."
  },
  {
   "property": "C143",
   "status": "proved",
   "theorems": [
    "C143_lif",
    "C143_rest_refuted",
    "C143_only",
    "C143_only_beyond",
    "C143_serie",
    "C143_serie_missing",
    "C143_serie_refuted",
    "C143_flat_refuted",
    "C143_first_run_refuted",
    "C143_ini",
    "C143_home",
    "C143_refused"
   ],
   "note": "Findings: SerieTracker::length is never set, so the number of time steps of --modeSerie is whatever was in memory, and the increment after the last step loads the images of one more step: with exactly the images asked for, a run never both succeeds and writes all steps (C143_serie_refuted). In LIF mode, when less than one image follows the series in the file, the increment after the last step reads after the end of the file (C143_rest_refuted). The first run cannot create its directory: system()==0 is taken for a failure (C143_first_run_refuted). A series without slices and without threshold uses a mean that is never computed (C143_flat_refuted). A file of the user named <output>test.test is destroyed."
  },
  {
   "property": "C144",
   "status": "proved",
   "theorems": [
    "C144_missing",
    "C144_computed",
    "C144_again",
    "C144_loaded",
    "C144_bonds_refuted",
    "C144_refused",
    "C144_window",
    "C144_unsorted_refuted",
    "C144_again_refuted",
    "C144_window_refuted"
   ],
   "note": "Findings: in the run without files of cgVoro the order is kept for particles at only half of the bond length from the faces, so that some of them lack neighbours (C144_window_refuted); once a first run wrote the .bonds files, a second run takes the .outside files of cgVoro if there are any, with bonds that are not those of cgVoro, and changes the results (C144_again_refuted); the .outside files must be sorted (C144_unsorted_refuted); only the first and last files are looked for, a missing .bonds in between ends the program (C144_bonds_refuted)."
  },
  {
   "property": "C145",
   "status": "proved",
   "theorems": [
    "C145_spanning",
    "C145_beyond",
    "C145_spanning_enclosed",
    "C145_enclosed",
    "C145_inside",
    "C145_whole",
    "C145_drift",
    "C145_slice",
    "C145_slice_inside",
    "C145_no_index",
    "C145_reset",
    "C145_possible",
    "C145_enclosed_refuted",
    "C145_slice_refuted",
    "C145_stale_refuted"
   ],
   "note": "Findings: selectEnclosed(box) leaves out every trajectory that does not exist at all times of the movie (C145_enclosed_refuted); removeDrift(file) keeps the index of the old positions, removeDrift() drops it (C145_stale_refuted); the slice of an index at a time leaves out positions of trajectories that leave the box at another time, and its result is not sorted although the interface says so (C145_slice_refuted); selectSpanning after the end of the movie is empty with an index and undefined without (C145_beyond); getDrift with an index takes the trajectories that stay a diameter inside at all times. sliceIndex itself cannot be instantiated."
  },
  {
   "property": "C146",
   "status": "proved",
   "theorems": [
    "C146_computed",
    "C146_loaded",
    "C146_short_refuted",
    "C146_again",
    "C146_nan_refuted",
    "C146_stops",
    "C146_empty_refuted",
    "C146_again_refuted"
   ],
   "note": "Findings: a null minimum (or an .rdf file with less than 200 rows) makes the program loop for ever (C146_computed, C146_short_refuted); the second run reads the rounded mean and may use another bond length (C146_again_refuted); a time step in which no particle is 15 diameters away from the faces makes all values nan, and every file of bonds is empty (C146_nan_refuted); a file without any time step is undefined behaviour (C146_empty_refuted). The positions are read with radius 1."
  },
  {
   "property": "C147",
   "status": "proved",
   "theorems": [
    "C147_file",
    "C147_one_row",
    "C147_moved",
    "C147_null_refuted",
    "C147_outside_refuted"
   ],
   "note": "Findings: contrary to the program without periodic conditions, particles with a null order are counted (C147_null_refuted); positions that are not in the cell are brought back by one period only (C147_outside_refuted). Bins are exact (C108)."
  },
  {
   "property": "C148",
   "status": "proved",
   "theorems": [
    "C148_getters",
    "C148_undefined",
    "C148_series",
    "C148_no_series",
    "C148_print",
    "C148_units_refuted",
    "C148_half_refuted",
    "C148_comment_refuted",
    "C148_print_refuted",
    "C148_ratio_refuted",
    "C148_names"
   ],
   "note": "Findings: the sizes of voxels are printed to the standard output, not to the stream given (C148_print_refuted); time stamps in the new format are not converted to ms as those of the old one (C148_units_refuted); a comment among the channels or dimensions, or more time stamps than announced, is undefined behaviour (C148_comment_refuted); a stamp without a half takes the half of the one before (C148_half_refuted); the ratio divides by a null X size (C148_ratio_refuted). XML parsing itself (TinyXML) and the conversions of text to numbers are oracles."
  },
  {
   "property": "C149",
   "status": "proved",
   "theorems": [
    "C149_dialogue",
    "C149_one",
    "C149_question",
    "C149_after",
    "C149_empty_refuted",
    "C149_answer",
    "C149_end_refuted",
    "C149_letter_refuted"
   ],
   "note": "Findings: a typing error is taken for 0 silently (C149_letter_refuted); when the input ends after an answer that was refused, or after a number too large, the question is asked for ever (C149_end_refuted), as it is with no series (C149_empty_refuted); after a failure the channel is an indeterminate value (C149_after)."
  },
  {
   "property": "C150",
   "status": "proved",
   "theorems": [
    "C150_filter",
    "C150_band",
    "C150_spectrum",
    "C150_twice",
    "C150_linear",
    "C150_brightness",
    "C150_moved",
    "C150_mirrored",
    "C150_all",
    "C150_fftw",
    "C150_odd_refuted"
   ],
   "note": "Exact arithmetic: rounding is not modelled. The result is multiplied by the number of pixels. Finding: with an odd number of slices or lines the mask is not symmetric and what is given to FFTW's c2r is half of no real image's spectrum (C150_odd_refuted)."
  },
  {
   "property": "C151",
   "status": "proved",
   "theorems": [
    "C151_anisotropic",
    "C151_isotropic",
    "C151_low",
    "C151_refused",
    "C151_refused_isotropic",
    "C151_negative_refuted",
    "C151_roots",
    "C151_image",
    "C151_low_image",
    "C151_brightness"
   ],
   "note": "Doubles are real numbers: waves whose half period equals a radius up to rounding may differ. Finding: a null or (not too) negative smallest radius passes the test of makeBandPassMask, and is not tested by makeLowPassMask; a negative or infinite double is then converted to size_t (C151_negative_refuted). Null radii across slices only are not modelled."
  },
  {
   "property": "C152",
   "status": "proved",
   "theorems": [
    "C152_radii",
    "C152_end_refuted",
    "C152_missing",
    "C152_missing_first",
    "C152_after_tracking",
    "C152_ratio_refuted"
   ],
   "note": "The search of one radius is a parameter here (C90, C91). Findings: after the last time step one more image is read without any test, so that a series at the end of its file always ends with reads after the end of the file (C152_end_refuted; the tracker of positions has a test, C143); the ratio of voxel sizes is never given to the search of radii, which are wrong for slices that are not one pixel apart (C152_ratio_refuted)."
  },
  {
   "property": "C153",
   "status": "proved",
   "theorems": [
    "C153_files",
    "C153_restart",
    "C153_crash",
    "C153_refused",
    "C153_computed",
    "C153_reload",
    "C153_stale_refuted",
    "C153_unwritable_refuted",
    "C153_small_refuted",
    "C153_flat",
    "C153_past_end",
    "C153_serie"
   ],
   "note": "The stages of the finder (fill, initialize_binary, subpix) are parameters, with the hypothesis that the centres only depend on the settings and the image (proved in C113 and C114 for fill); get_deconv_kernel is one too, with a kernel of the right size (C72); std::sort is any sorting function. An interrupted run leaves a beginning of the file being written (C153_crash); an interruption while the kernel is computed is not covered. Findings: a time step without any centre leaves the file of an earlier run in place (C153_stale_refuted); files that cannot be created are skipped and the run succeeds (C153_unwritable_refuted); for images with a size below 10 any kernel is accepted and none is used (C153_small_refuted); a file shorter than announced is read past its end (C153_past_end)."
  },
  {
   "property": "C154",
   "status": "proved",
   "theorems": [
    "C154_dynhet",
    "C154_post",
    "C154_late",
    "C154_before_refuted",
    "C154_longer_refuted",
    "C154_negative_refuted",
    "C154_word",
    "C154_dropped_refuted",
    "C154_missing"
   ],
   "note": "Trajectories are the text saved by the library for tidy trajectories (without hole in positions); bond files hold at least one bond (C103_no_bond_refuted otherwise). Findings: -1 passes the check of dhlngb since the sum wraps, and reads out of bounds (C154_before_refuted); an interval longer than the series overwrites the files of all time steps with -1, then reads out of bounds (C154_longer_refuted); a negative interval never succeeds (C154_negative_refuted); an argument that is not a number is 0, so that lostngb silently writes zeros (C154_word); a trajectory file where a particle was dropped is undefined behaviour in both programs (C154_dropped_refuted)."
  },
  {
   "property": "C155",
   "status": "proved",
   "theorems": [
    "C155_run",
    "C155_recovers",
    "C155_again",
    "C155_cages_kept",
    "C155_span_refuted",
    "C155_torn_refuted",
    "C155_other_interval_refuted"
   ],
   "note": "A run is a list of truncations and appends of one symbol; an interruption keeps any prefix of it (no loss of buffered data after a close, no reordering by the operating system, except for velocities written by several threads in any order). Contents of files are fields of a record. Findings: once .cages exists neither it nor _cages.span is ever written again (C155_cages_kept), so an interruption between both loses the spans (C155_span_refuted) and one inside .cages makes the later runs calculate jumps from the torn file or read out of bounds (C155_torn_refuted); another averaging interval keeps the velocities and jumps of the previous one (C155_other_interval_refuted)."
  },
  {
   "property": "C156",
   "status": "proved",
   "theorems": [
    "C156_track",
    "C156_threshold",
    "C156_auto",
    "C156_dark_refuted",
    "C156_light",
    "C156_moved",
    "C156_filter"
   ],
   "note": "Pixels and thresholds are integers in some unit (exact arithmetic); the refinement is on rationals (C137). The hypotheses on the filter (keeps_size, linear_without_mean, moves_along) are proved of exact Fourier transforms from C150 (C156_filter; over the integers such transforms exist for dimensions 1, 2 and 4) and of the removal of the mean of a line of any length. Images without dimension of 5 to 12 pixels (see C69). Finding: with the automatic threshold a frame where nothing reaches the threshold is undefined behaviour (C156_dark_refuted)."
  },
  {
   "property": "C157",
   "status": "proved",
   "theorems": [
    "C157_angle",
    "C157_legendre",
    "C157_own",
    "C157_isolated",
    "C157_product",
    "C157_range",
    "C157_moved",
    "C157_coarse",
    "C157_coefficients_refuted",
    "C157_coincident_refuted"
   ],
   "note": "Real numbers of the standard library; spherical harmonics are those of Euler_Spec (Rodrigues' formula), Legendre polynomials the same formula at order 0. Even degrees up to 10, the only ones the library has. The normed product is given where both norms are not null (0/0 otherwise). Finding: two neighbours at the same position are taken for a bond along z, then Ql changes when the sample is turned (C157_coincident_refuted)."
  },
  {
   "property": "C158",
   "status": "proved",
   "theorems": [
    "C158_angle",
    "C158_moved",
    "C158_straight",
    "C158_triangle",
    "C158_distribution",
    "C158_opposite",
    "C158_moved_distribution"
   ],
   "note": "Real numbers of the standard library (acos of Ratan). Completes C41, where the bins were any function. Finding: with a particle exactly between two of its neighbours the distribution is written out of the array, always (C158_opposite)."
  },
  {
   "property": "C159",
   "status": "proved",
   "theorems": [
    "C159_bounded",
    "C159_bounded_sample",
    "C159_bounded_coarse",
    "C159_bound_reached",
    "C159_wl_unbounded",
    "C159_turned",
    "C159_angles",
    "C159_moved",
    "C159_coarse",
    "C159_single",
    "C159_isolated",
    "C159_wl_refuted"
   ],
   "note": "Real numbers of the standard library; the guard 1.0+sumNorm==1.0 is read as sumNorm==0. Finding: getWl (not getInvarients) gives values that depend on the orientation of the sample (C159_wl_refuted)."
  },
  {
   "property": "C160",
   "status": "proved",
   "theorems": [
    "C160_self",
    "C160_bounds",
    "C160_msd",
    "C160_windows",
    "C160_axes",
    "C160_collective",
    "C160_norm_refuted",
    "C160_seen"
   ],
   "note": "Real numbers of the standard library. Divisions by zero (no trajectory) are excluded by hypotheses. Finding: getISF is not normalised, it gives k*k at all lags but the first for k trajectories in a plane perpendicular to the wave vector (C160_norm_refuted)."
  },
  {
   "property": "C161",
   "status": "proved",
   "theorems": [
    "C161_value",
    "C161_bounds",
    "C161_gaussian_refuted",
    "C161_moved"
   ],
   "note": "Real numbers of the standard library; the case where nothing moved (0/0 in the program) and lag 0 are excluded. Findings: the value is the same at all lags, since each lag uses the displacements from t0 to t1 (also C49); nothing is subtracted, so the moments of a Gaussian give 5/9 (C161_gaussian_refuted); the MSD of get_MSD_NGP is divided twice by the number of trajectories when t3 > 0."
  },
  {
   "property": "C162",
   "status": "proved",
   "theorems": [
    "C162_moved",
    "C162_least",
    "C162_unique",
    "C162_selection_refuted"
   ],
   "note": "Exact rational coordinates. Finding: for a part of the trajectories the removal can raise the mean square displacement (C162_selection_refuted)."
  },
  {
   "property": "C163",
   "status": "proved",
   "theorems": [
    "C163_neighbours",
    "C163_rdf",
    "C163_short_range",
    "C163_cut",
    "C163_cut_numbering_refuted"
   ],
   "note": "Exact integer coordinates. Finding: the greedy cut depends on the order of the particles (C163_cut_numbering_refuted)."
  },
  {
   "property": "C164",
   "status": "proved",
   "theorems": [
    "C164_bonds",
    "C164_1551",
    "C164_2331",
    "C164_second_shell",
    "C164_sp5c",
    "C164_clusters",
    "C164_samples"
   ],
   "note": "Neighbour lists sorted, in range and symmetric, as makeNgbList leaves them (C164_samples shows that two samples with proportional distances give such lists)."
  },
  {
   "property": "C165",
   "status": "proved",
   "theorems": [
    "C165_reverse",
    "C165_motion",
    "C165_ties_refuted",
    "C165_reverse_always",
    "C165_motion_always"
   ],
   "note": "Exact integer coordinates; the two movies may use different R*-tree strategies. Ties are allowed (C165_reverse_always, C165_motion_always) except when the positions are renumbered: with a tie the order of the positions decides (C165_ties_refuted)."
  },
  {
   "property": "C166",
   "status": "proved",
   "theorems": [
    "C166_follow",
    "C166_fast_refuted",
    "C166_swap_refuted"
   ],
   "note": "Exact integer coordinates, any R*-tree strategy. Both hypotheses are needed: C166_fast_refuted (separation 2d-3), C166_swap_refuted (one leaves, another comes near)."
  },
  {
   "property": "C167",
   "status": "proved",
   "theorems": [
    "C167_extract",
    "C167_window",
    "C167_near_refuted",
    "C167_ordered",
    "C167_window_always"
   ],
   "note": "Exact integer coordinates; the part and the movie may use different R*-tree strategies; ties are allowed in windows and in parts that keep the order of the positions. A position left out too near changes the trajectories (C167_near_refuted)."
  }
 ]
}