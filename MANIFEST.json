{
 "claims": [
  {
   "property": "C01",
   "status": "proved",
   "theorems": [
    "C01_get_next_pow2_least",
    "C01_get_next_pow2_zero_outside",
    "C01_ispow2_iff"
   ],
   "note": ""
  },
  {
   "property": "C02",
   "status": "proved",
   "theorems": [
    "C02_popcount_counts_ones",
    "C02_hdist_counts_differences",
    "C02_hdist_zero_iff_equal",
    "C02_hdist_symmetric",
    "C02_hdist_triangle",
    "C02_hdist_arr_mod",
    "C02_hdist_arr_uint8_exact_refuted",
    "C02_gdist_le_hdist",
    "C02_gdist_is_popcount_difference"
   ],
   "note": "Claims refuted by a witness: C02_hdist_arr_uint8_exact_refuted (so it is exact for every array pair exactly as long as the count fits; it does not fit for all arrays)."
  },
  {
   "property": "C03",
   "status": "proved",
   "theorems": [
    "C03_L1dist_scalar_exact",
    "C03_L1dist_array_mod",
    "C03_L1dist_array_exact_iff",
    "C03_L1dist_array_default_exact_refuted",
    "C03_L1dist_masked_exact"
   ],
   "note": "Claims refuted by a witness: C03_L1dist_array_default_exact_refuted (the default output type of 8-bit channels is 8 bits: not exact for all pixels)."
  },
  {
   "property": "C04",
   "status": "proved",
   "theorems": [
    "C04_L2sqrdist_8bit_exact",
    "C04_L2sqrdist_16bit",
    "C04_L2sqrdist_16bit_defined_refuted",
    "C04_L2dist_8bit_radicand",
    "C04_L2dist_3ch_exact_refuted",
    "C04_L2sqrdist_array_exact_wide"
   ],
   "note": "Claims refuted by a witness: C04_L2sqrdist_16bit_defined_refuted; C04_L2dist_3ch_exact_refuted (so the L2 distance of two 3-channel colours (e.g. cv::Vec3b, used by the 3-channel ViBe and PBAS models) is not the Euclidean distance: two colours more than 255 apart are reported as less than 5 apart)."
  },
  {
   "property": "C05",
   "status": "proved",
   "theorems": [
    "C05_cdist_zero_cases",
    "C05_cdist_value",
    "C05_cdist_proportional_zero",
    "C05_cdist_16bit_defined_refuted",
    "C05_cmix_value",
    "C05_cmix_pixel_value",
    "C05_cmix_separates_refuted"
   ],
   "note": "Claims refuted by a witness: C05_cdist_16bit_defined_refuted (16-bit colours: the promoted products overflow int); C05_cmix_separates_refuted (so two clearly different colours can have mixed distance 0)."
  },
  {
   "property": "C06",
   "status": "proved",
   "theorems": [
    "C06_find_nn_index_first_minimiser",
    "C06_find_nn_index_sentinel_iff_empty"
   ],
   "note": ""
  },
  {
   "property": "C07",
   "status": "proved",
   "theorems": [
    "C07_interp1_passes_through_knots",
    "C07_interp1_first_half_interpolates",
    "C07_interp1_second_half_extrapolates",
    "C07_interp1_is_interpolation_refuted",
    "C07_interp1_min_overlap_in_bounds_refuted",
    "C07_interp1_rejects_extrapolation"
   ],
   "note": "Claims refuted by a witness: C07_interp1_is_interpolation_refuted (the documented behaviour fails: knots (0,0) (10,10) (20,0), query 9); C07_interp1_min_overlap_in_bounds_refuted (more abscissae than ordinates (\"use min overlap otherwise\"): the slope table is indexed out of bounds)."
  },
  {
   "property": "C08",
   "status": "proved",
   "theorems": [
    "C08_linspace_points",
    "C08_linspace_endpoints_and_step",
    "C08_linspace_without_initial",
    "C08_linspace_small"
   ],
   "note": ""
  },
  {
   "property": "C09",
   "status": "proved",
   "theorems": [
    "C09_expand_bits_interleaves",
    "C09_expand_bits_injective",
    "C09_expand_bits_64bit_refuted",
    "C09_extend_bits_zero_max",
    "C09_extend_bits_strictly_monotone",
    "C09_extend_bits_max_beyond_double_refuted"
   ],
   "note": "Claims refuted by a witness: C09_expand_bits_64bit_refuted (on 64-bit types the int-typed shifts are undefined); C09_extend_bits_max_beyond_double_refuted (beyond doubling, the documented max-max mapping fails)."
  },
  {
   "property": "C10",
   "status": "proved",
   "theorems": [
    "C10_exact_period",
    "C10_visits_every_state",
    "C10_seed_update_injective",
    "C10_output_is_bits_16_to_30",
    "C10_vec_is_lanewise",
    "C10_defined_for_all_seeds_refuted",
    "C10_checked_agrees"
   ],
   "note": "Claims refuted by a witness: C10_defined_for_all_seeds_refuted (with signed overflow undefined, the function is undefined for ordinary seeds)."
  },
  {
   "property": "C11",
   "status": "proved",
   "theorems": [
    "C11_determinant_small",
    "C11_determinant_general",
    "C11_LU_solves",
    "C11_invert_small",
    "C11_invert_small_fails_iff_singular",
    "C11_invert_general",
    "C11_invert_general_reports_singular",
    "C11_invert_general_only_singular_refuted",
    "C11_invert_in_place_refuted",
    "C11_integer_elements_refuted"
   ],
   "note": "Claims refuted by a witness: C11_invert_general_only_singular_refuted (the converse fails: an invertible (diagonal) matrix below the absolute tolerance is reported as singular); C11_invert_in_place_refuted (in-place inversion (input and output the same buffer) is wrong for 2x2 and 3x3); C11_integer_elements_refuted (integer element types: determinant<4,int> of diag(2,1,1,1) ends in a division by zero, and LU of a singular integer matrix divides by zero inside)."
  },
  {
   "property": "C12",
   "status": "proved",
   "theorems": [
    "C12_filter_out",
    "C12_filter_in",
    "C12_indices_of",
    "C12_sort_indices",
    "C12_unique_indices",
    "C12_unique_indices_first_occurrence_refuted",
    "C12_unique",
    "C12_make_range",
    "C12_make_range_empty",
    "C12_make_range_all_ints_refuted"
   ],
   "note": "Claims refuted by a witness: C12_unique_indices_first_occurrence_refuted (but not necessarily by its first occurrence, as documented: std::sort is not stable); C12_make_range_all_ints_refuted (ranges ending at INT_MAX overflow the running value of std::iota; ranges wider than INT_MAX overflow b-a)."
  },
  {
   "property": "C13",
   "status": "proved",
   "theorems": [
    "C13_split_join",
    "C13_split_join_identity_refuted",
    "C13_contains_token",
    "C13_clamp_length",
    "C13_clamp_content"
   ],
   "note": "Claims refuted by a witness: C13_split_join_identity_refuted (consequently the full round trip does not hold: a trailing delimiter is lost)."
  },
  {
   "property": "C14",
   "status": "proved",
   "theorems": [
    "C14_putf_complete",
    "C14_putf_at_buffer_size",
    "C14_putf_1024_refuted"
   ],
   "note": "Claims refuted by a witness: C14_putf_1024_refuted (with the buffer of the code)."
  },
  {
   "property": "C15",
   "status": "proved",
   "theorems": [
    "C15_operations_meet_contract",
    "C15_never_faults",
    "C15_read_returns_element",
    "C15_no_leak_no_sharing",
    "C15_at_checked",
    "C15_push_back_growth"
   ],
   "note": ""
  },
  {
   "property": "C16",
   "status": "proved",
   "theorems": [
    "C16_same_size_move_static_aliases_source",
    "C16_same_size_move_heap_aliases_source",
    "C16_push_own_element_when_full",
    "C16_at_negative_index_unchecked"
   ],
   "note": ""
  },
  {
   "property": "C17",
   "status": "proved",
   "theorems": [
    "C17_allocation_size",
    "C17_allocation_least",
    "C17_unchecked_count_refuted"
   ],
   "note": "Claims refuted by a witness: C17_unchecked_count_refuted (allocate itself does not check max_size: past it the request can wrap to fewer bytes than the elements need)."
  },
  {
   "property": "C18",
   "status": "proved",
   "theorems": [
    "C18_conservation",
    "C18_no_lost_wakeup",
    "C18_turns_hand_out_all",
    "C18_turn",
    "C18_try",
    "C18_fairness_refuted",
    "C18_overflow_refuted"
   ],
   "note": "Claims refuted by a witness: C18_fairness_refuted (threads are not served in the order of their arrival: one can be overtaken any number of times, although as many resources have been put in); C18_overflow_refuted (one resource too many and the count starts again from nothing)."
  },
  {
   "property": "C19",
   "status": "proved",
   "theorems": [
    "C19_first_in_first_out",
    "C19_each_once",
    "C19_no_lost_wakeup",
    "C19_destructor_runs_all",
    "C19_comes_to_rest",
    "C19_rest_is_reached",
    "C19_refused",
    "C19_accepted_always_runs_refuted",
    "C19_safe_destruction_refuted"
   ],
   "note": "Claims refuted by a witness: C19_accepted_always_runs_refuted (a thread inside queueTask() when the destructor starts: its task is accepted, yet never runs); C19_safe_destruction_refuted (... or it goes on to use the destroyed pool)."
  },
  {
   "property": "C20",
   "status": "proved",
   "theorems": [
    "C20_eval_floor",
    "C20_eval_outside",
    "C20_eval_round_nearest",
    "C20_eval_mid_in_bounds",
    "C20_eval_mid_round_odd",
    "C20_eval_mid_even_misses_min",
    "C20_eval_mid_exact_at_ends_refuted",
    "C20_integer_table_exact"
   ],
   "note": "Claims refuted by a witness: C20_eval_mid_exact_at_ends_refuted."
  },
  {
   "property": "C21",
   "status": "proved",
   "theorems": [
    "C21_comparisons",
    "C21_horizontal_sums",
    "C21_horizontal_extrema_8ui",
    "C21_hmax_32si",
    "C21_products",
    "C21_unpack",
    "C21_extract_sse41",
    "C21_extract_sse2_iff",
    "C21_extract_sse2_refuted"
   ],
   "note": "Claims refuted by a witness: C21_extract_sse2_refuted."
  },
  {
   "property": "C22",
   "status": "proved",
   "theorems": [
    "C22_clamp_inside_and_nearest",
    "C22_clamp_without_room_refuted",
    "C22_sample_inside",
    "C22_sample_frequency_is_weight",
    "C22_sample_3x3_7x7",
    "C22_sample_periodic",
    "C22_sample_negative_random",
    "C22_neighbor_defined_inside",
    "C22_neighbor_exactly_once",
    "C22_neighbor_negative_random_undefined"
   ],
   "note": "Claims refuted by a witness: C22_clamp_without_room_refuted (without room for the border the clamped point may even leave the image)."
  },
  {
   "property": "C23",
   "status": "proved",
   "theorems": [
    "C23_equality_iff",
    "C23_equality_equivalence",
    "C23_total",
    "C23_empty_iff_null_dimension_refuted",
    "C23_transpose_involution",
    "C23_cross_type_symmetric",
    "C23_cross_type_symmetry_refuted",
    "C23_negative_size_rejected_refuted",
    "C23_sizes_rejected_iff",
    "C23_cvsize_roundtrip",
    "C23_cvsize_comparison_congruent_refuted"
   ],
   "note": "Claims refuted by a witness: C23_empty_iff_null_dimension_refuted (a product that wraps to 0 makes a size without any null dimension \"empty\" and equal to every empty size); C23_cross_type_symmetry_refuted; C23_negative_size_rejected_refuted (a negative size is rejected for int but silently converted for size_t, the default type); C23_cvsize_comparison_congruent_refuted (equal sizes may compare differently with a cv::Size, and two unequal non-empty sizes may both equal the same cv::Size)."
  },
  {
   "property": "C24",
   "status": "proved",
   "theorems": [
    "C24_unpack_pack",
    "C24_pack_unpack",
    "C24_pack_row_is_pointwise",
    "C24_unpack_row_is_pointwise"
   ],
   "note": ""
  },
  {
   "property": "C25",
   "status": "proved",
   "theorems": [
    "C25_bgr_channels_in_range",
    "C25_bgr_hsl_bgr",
    "C25_bgr8_hsl_bgr8",
    "C25_hsl_bgr_hsl",
    "C25_bytes"
   ],
   "note": ""
  },
  {
   "property": "C26",
   "status": "proved",
   "theorems": [
    "C26_binary_roundtrip",
    "C26_binary_injective",
    "C26_region_roundtrip",
    "C26_lz4_roundtrip",
    "C26_lz4_write_succeeds",
    "C26_binary_truncation_detected",
    "C26_lz4_truncation_undetected_refuted",
    "C26_overrun_iff",
    "C26_header_not_validated_refuted",
    "C26_read_into_continuous",
    "C26_read_into_region_refuted",
    "C26_plaintext_exact_iff",
    "C26_plaintext_nearest",
    "C26_plaintext_roundtrip_refuted"
   ],
   "note": "Claims refuted by a witness: C26_lz4_truncation_undetected_refuted (... whereas an incompressible matrix in a truncated LZ4 archive is returned partly uninitialised without an error); C26_header_not_validated_refuted (changing one byte of a valid file (the element count) is enough); C26_read_into_region_refuted (reading into a region of interest of the same type and size stores the bytes contiguously: wrong elements inside, modified bytes outside); C26_plaintext_roundtrip_refuted."
  },
  {
   "property": "C27",
   "status": "proved",
   "theorems": [
    "C27_pack_unpack",
    "C27_unpack_exact",
    "C27_empty_info_lost_refuted",
    "C27_big_packet_overrun_refuted"
   ],
   "note": "Claims refuted by a witness: C27_empty_info_lost_refuted (type and sizes of empty matrices are lost); C27_big_packet_overrun_refuted (without the 2 GiB bound (checked in debug builds only) the column count wraps: one byte is allocated for 2^32+1 bytes of data)."
  },
  {
   "property": "C28",
   "status": "proved",
   "theorems": [
    "C28_copies_exactly_the_overlap",
    "C28_negative_rectangle_not_empty_refuted"
   ],
   "note": "Claims refuted by a witness: C28_negative_rectangle_not_empty_refuted (a rectangle with two negative sides has positive area, passes the empty check and is only stopped by OpenCV's own assertion)."
  },
  {
   "property": "C29",
   "status": "proved",
   "theorems": [
    "C29_integer_shift_inside",
    "C29_integer_shift",
    "C29_subpixel_shift",
    "C29_subpixel_position",
    "C29_last_column_refuted"
   ],
   "note": "Claims refuted by a witness: C29_last_column_refuted (in the last column a negative fractional offset mixes in zeros even with a replicated border: a constant image does not stay constant)."
  },
  {
   "property": "C30",
   "status": "proved",
   "theorems": [
    "C30_chatfield_valid",
    "C30_chatfield_bad_angle",
    "C30_chatfield_out_of_range_refuted",
    "C30_chatfield_division_by_zero",
    "C30_lienhart_valid",
    "C30_lienhart_one_bin_empty"
   ],
   "note": "Claims refuted by a witness: C30_chatfield_out_of_range_refuted (with 100 angular bins already the diagonal neighbour of the centre gets an index past the end of the descriptor)."
  },
  {
   "property": "C31",
   "status": "proved",
   "theorems": [
    "C31_polynomial_equals_energy",
    "C31_minimisers_agree"
   ],
   "note": ""
  },
  {
   "property": "C32",
   "status": "proved",
   "theorems": [
    "C32_scalar",
    "C32_sse41",
    "C32_sse2",
    "C32_paths_agree",
    "C32_descriptor_unique"
   ],
   "note": ""
  },
  {
   "property": "C33",
   "status": "proved",
   "theorems": [
    "C33_lookup_in_image",
    "C33_offsets_are_pattern",
    "C33_lookup_distinct",
    "C33_centre_not_in_pattern",
    "C33_gradient",
    "C33_gradient_bounds",
    "C33_gradient_threshold",
    "C33_written_pixels"
   ],
   "note": ""
  },
  {
   "property": "C34",
   "status": "proved",
   "theorems": [
    "C34_absolute",
    "C34_absolute_range",
    "C34_absolute_large_refuted",
    "C34_relative_range",
    "C34_relative_monotone",
    "C34_relative_exact",
    "C34_relative_large_refuted",
    "C34_rounding_exists"
   ],
   "note": "Claims refuted by a witness: C34_absolute_large_refuted (thresholds from 2^31 up to 2^32 become zero instead of 255); C34_relative_large_refuted (offsets from 2^31 give threshold zero: every neighbour difference then counts)."
  },
  {
   "property": "C35",
   "status": "proved",
   "theorems": [
    "C35_counts",
    "C35_dense",
    "C35_representations_agree",
    "C35_bins"
   ],
   "note": ""
  },
  {
   "property": "C36",
   "status": "proved",
   "theorems": [
    "C36_is_information",
    "C36_bounds",
    "C36_symmetric",
    "C36_normalised",
    "C36_self",
    "C36_dense_agrees",
    "C36_fast_approximation_refuted"
   ],
   "note": "Claims refuted by a witness: C36_fast_approximation_refuted (with the fast-approximation flag the count matrix stays empty and the score is 0, whatever the histograms)."
  },
  {
   "property": "C37",
   "status": "proved",
   "theorems": [
    "C37_pass_exact",
    "C37_pass_keeps_values",
    "C37_removed_neighbours_form_arc",
    "C37_terminates",
    "C37_fuel_irrelevant",
    "C37_subset",
    "C37_border_kept",
    "C37_result_irreducible",
    "C37_idempotent",
    "C37_pattern_only",
    "C37_nonempty_preserved_refuted"
   ],
   "note": "Claims refuted by a witness: C37_nonempty_preserved_refuted."
  },
  {
   "property": "C38",
   "status": "proved",
   "theorems": [
    "C38_out_of_bounds_iff",
    "C38_black_border_always",
    "C38_otherwise_subset"
   ],
   "note": ""
  },
  {
   "property": "C39",
   "status": "proved",
   "theorems": [
    "C39_histogram_exact",
    "C39_median_is_upper_median",
    "C39_rank_determines_value",
    "C39_empty_selection_overruns",
    "C39_blur_is_lower_median",
    "C39_blur_default",
    "C39_blur_buffer_fits",
    "C39_same_median_refuted"
   ],
   "note": "Claims refuted by a witness: C39_same_median_refuted."
  },
  {
   "property": "C40",
   "status": "proved",
   "theorems": [
    "C40_unmasked_majority",
    "C40_masked_majority",
    "C40_unmasked_equals_full_mask",
    "C40_consensus",
    "C40_integral_range",
    "C40_raw_01",
    "C40_raw_255_is_dilation",
    "C40_neon_integral"
   ],
   "note": ""
  },
  {
   "property": "C41",
   "status": "proved",
   "theorems": [
    "C41_defined",
    "C41_marks_are_maxima",
    "C41_marks_are_separated",
    "C41_strict_maxima_are_marked",
    "C41_all_strict_maxima_marked_refuted",
    "C41_masked_negative_write_refuted",
    "C41_line_maximum",
    "C41_diagonal_maximum",
    "C41_line_maximum_unique"
   ],
   "note": "Claims refuted by a witness: C41_all_strict_maxima_marked_refuted; C41_masked_negative_write_refuted (with a mask and negative values an empty tile makes the function write above the first row)."
  },
  {
   "property": "C42",
   "status": "proved",
   "theorems": [
    "C42_components",
    "C42_mask",
    "C42_aligned_refuted",
    "C42_blank_image_refuted"
   ],
   "note": "Claims refuted by a witness: C42_aligned_refuted; C42_blank_image_refuted (and the last two rows depend on earlier calls: after an 9-row image, a blank 5-row image of the same width is given edges)."
  },
  {
   "property": "C43",
   "status": "proved",
   "theorems": [
    "C43_level_in_bounds",
    "C43_every_pixel_once",
    "C43_inner_pixels",
    "C43_next_level_written_once",
    "C43_next_level_range",
    "C43_next_level_mean",
    "C43_level_size",
    "C43_large_images_safe",
    "C43_small_images_refuted"
   ],
   "note": "Claims refuted by a witness: C43_small_images_refuted."
  },
  {
   "property": "C67",
   "status": "proved",
   "theorems": [
    "C67_accumulated",
    "C67_sector_exact",
    "C67_sectors_used",
    "C67_candidate_directions",
    "C67_follows_gradient_refuted",
    "C67_border_descriptor",
    "C67_border_gradient"
   ],
   "note": "Claims refuted by a witness: C67_follows_gradient_refuted (the suppression does not follow the gradient: when every level sees an almost horizontal gradient, the vertical direction is used)."
  },
  {
   "property": "C44",
   "status": "proved",
   "theorems": [
    "C44_counts",
    "C44_no_ground_truth",
    "C44_additive",
    "C44_equal",
    "C44_commutative",
    "C44_associative",
    "C44_order",
    "C44_colours",
    "C44_strided_roi_refuted"
   ],
   "note": "Claims refuted by a witness: C44_strided_roi_refuted (a region of interest whose rows are further apart than its width (a submatrix) is accepted, and pixels outside of it are scored: the assertion at metrics.cpp:24 tests the ground truth instead)."
  },
  {
   "property": "C45",
   "status": "proved",
   "theorems": [
    "C45_bounded",
    "C45_complements",
    "C45_fmeasure",
    "C45_fmeasure_between",
    "C45_mcc",
    "C45_mcc_perfect",
    "C45_mcc_sign_refuted",
    "C45_perfect_is_zero_refuted"
   ],
   "note": "Claims refuted by a witness: C45_mcc_sign_refuted (from 2^32 false positives and negatives the sign can be wrong: one hit against 2^64 errors is reported as positive correlation); C45_perfect_is_zero_refuted (a faultless classification of a frame without positives gets recall, precision, F-measure 0 and no Matthews coefficient)."
  },
  {
   "property": "C46",
   "status": "proved",
   "theorems": [
    "C46_average",
    "C46_average_bounds",
    "C46_no_output",
    "C46_totals",
    "C46_average_is_total_refuted",
    "C46_equal_categories_refuted"
   ],
   "note": "Claims refuted by a witness: C46_average_is_total_refuted (the average is not the metric of the totals); C46_equal_categories_refuted (nested groups do not weigh the same: a category of three sequences counts three times as much as a category of one)."
  },
  {
   "property": "C47",
   "status": "proved",
   "theorems": [
    "C47_known",
    "C47_errors",
    "C47_merge",
    "C47_percent_range",
    "C47_percent_antitone",
    "C47_percent_merge",
    "C47_percent_order",
    "C47_average",
    "C47_nan_spreads",
    "C47_nan_is_bad_refuted"
   ],
   "note": "Claims refuted by a witness: C47_nan_is_bad_refuted (but a map of NaN has no bad pixel)."
  },
  {
   "property": "C48",
   "status": "proved",
   "theorems": [
    "C48_returned",
    "C48_no_failure",
    "C48_held",
    "C48_always_served",
    "C48_progress",
    "C48_join",
    "C48_last_index_refuted",
    "C48_end_stops_caching"
   ],
   "note": "Claims refuted by a witness: C48_last_index_refuted."
  },
  {
   "property": "C49",
   "status": "proved",
   "theorems": [
    "C49_exception_frees_packet_refuted",
    "C49_stop_frees_packet_refuted",
    "C49_exception_is_permanent",
    "C49_start_rethrows"
   ],
   "note": "Claims refuted by a witness: C49_exception_frees_packet_refuted (an exception of the loader while the worker caches a later packet frees the memory of the packet the client is using, with no call in between); C49_stop_frees_packet_refuted (after stopping (and restarting), asking again for the last index returns memory that was freed)."
  },
  {
   "property": "C50",
   "status": "proved",
   "theorems": [
    "C50_conservation",
    "C50_one_at_a_time",
    "C50_distinct_indices",
    "C50_in_order",
    "C50_queue_exact",
    "C50_accepted_iff_fits",
    "C50_stop_flushes",
    "C50_no_lost_wakeup",
    "C50_caller_served",
    "C50_stop_returns",
    "C50_exceptions_reported",
    "C50_stop_flushes_always_refuted"
   ],
   "note": "Claims refuted by a witness: C50_stop_flushes_always_refuted (a thread blocked in queue() while the writer is stopped: its packet is accepted when the worker has left, and never written)."
  },
  {
   "property": "C51",
   "status": "proved",
   "theorems": [
    "C51_workers_take_the_same_packet",
    "C51_second_erase_is_undefined",
    "C51_two_workers_refuted",
    "C51_no_worker_writes_nothing",
    "C51_requeued_packet_lost_refuted",
    "C51_requeued_packet_hangs_refuted",
    "C51_hang_is_permanent"
   ],
   "note": "Claims refuted by a witness: C51_two_workers_refuted (so two workers and one packet suffice: it is written twice and the behaviour is undefined); C51_requeued_packet_lost_refuted (one worker, an index queued again while it is being written: the new packet is accepted and erased without being written); C51_requeued_packet_hangs_refuted (if it is a smaller one, the byte count wraps around, and the worker then spins on the next packet without ever giving back the mutex)."
  },
  {
   "property": "C52",
   "status": "proved",
   "theorems": [
    "C52_count",
    "C52_push",
    "C52_final_count",
    "C52_final_time",
    "C52_current_time",
    "C52_never_again",
    "C52_restart_refuted"
   ],
   "note": "Claims refuted by a witness: C52_restart_refuted (\"start, stop, start\" is not possible; worse, the failed start makes the final time, known before, block for ever)."
  },
  {
   "property": "C53",
   "status": "proved",
   "theorems": [
    "C53_batches",
    "C53_counts",
    "C53_final",
    "C53_any",
    "C53_each",
    "C53_print",
    "C53_parse",
    "C53_distinct_paths",
    "C53_parse_succeeds",
    "C53_skipping_a_directory_refuted",
    "C53_backslash_refuted"
   ],
   "note": "Claims refuted by a witness: C53_skipping_a_directory_refuted (a skip token that names a whole directory makes the parsing throw); C53_backslash_refuted (directories whose names hold a backslash can end up with the same path)."
  },
  {
   "property": "C54",
   "status": "proved",
   "theorems": [
    "C54_value",
    "C54_injective",
    "C54_images",
    "C54_extensions_refuted",
    "C54_load_after_save",
    "C54_load_after_save_array",
    "C54_overwritten_refuted",
    "C54_order",
    "C54_order_refuted"
   ],
   "note": "Claims refuted by a witness: C54_extensions_refuted (images that differ only in their extension get the same name); C54_overwritten_refuted (two images of one name overwrite each other); C54_order_refuted (not beyond: wide names start only at ten million packets)."
  },
  {
   "property": "C55",
   "status": "proved",
   "theorems": [
    "C55_mask",
    "C55_decision",
    "C55_wrap_refuted",
    "C55_seen",
    "C55_updates",
    "C55_foreground",
    "C55_rate_one",
    "C55_familiar",
    "C55_static",
    "C55_still_refuted"
   ],
   "note": "Claims refuted by a witness: C55_wrap_refuted (Beyond that, distances wrap around: a bright red pixel is background on a black model with the default threshold of 20.); C55_still_refuted (A still scene may have some if it is not uniform: samples are taken from neighbours of the initial image.)."
  },
  {
   "property": "C56",
   "status": "proved",
   "theorems": [
    "C56_bounds",
    "C56_rate",
    "C56_faults",
    "C56_shift_refuted",
    "C56_window_refuted",
    "C56_lights_refuted",
    "C56_decision",
    "C56_identical",
    "C56_monotone",
    "C56_pbas_bounds",
    "C56_pbas_lottery",
    "C56_pbas_decision",
    "C56_pbas_steady"
   ],
   "note": "Claims refuted by a witness: C56_shift_refuted (Each of these happens. With the default parameters, a pixel which blinks for long and then turns foreground shifts a 64-bit number by 64, as nothing bounds its distance factor.); C56_window_refuted (A window of less than four frames is accepted by the constructor, and divides by zero at the first frame.); C56_lights_refuted (Switching the lights on after a hundred frames shifts a 32-bit number by more than 31 forty frames later, for every image size.)."
  },
  {
   "property": "C57",
   "status": "proved",
   "theorems": [
    "C57_enumerates",
    "C57_pixel",
    "C57_inverse",
    "C57_first_frame",
    "C57_away",
    "C57_region",
    "C57_again",
    "C57_copy_accepted_refuted",
    "C57_same_region_refuted"
   ],
   "note": "Claims refuted by a witness: C57_copy_accepted_refuted (the region in use, passed back, is refused); C57_same_region_refuted (setting a region and then initialising is not initialising with it: only the latter makes it grow)."
  },
  {
   "property": "C58",
   "status": "proved",
   "theorems": [
    "C58_kept",
    "C58_order",
    "C58_idempotent",
    "C58_removals",
    "C58_keeps_refuted",
    "C58_directory",
    "C58_names_only_refuted",
    "C58_files",
    "C58_directories",
    "C58_sorted",
    "C58_same_listing",
    "C58_slash"
   ],
   "note": "Claims refuted by a witness: C58_keeps_refuted (keeping in two steps is not keeping at once); C58_names_only_refuted."
  },
  {
   "property": "C59",
   "status": "proved",
   "theorems": [
    "C59_pixels",
    "C59_nodes",
    "C59_reads",
    "C59_elsewhere",
    "C59_source",
    "C59_values",
    "C59_still",
    "C59_identity",
    "C59_translation",
    "C59_motion",
    "C59_motion_image",
    "C59_control",
    "C59_control_last_refuted",
    "C59_coinciding_refuted"
   ],
   "note": "Claims refuted by a witness: C59_control_last_refuted (One on the last column is not, although the displacement is computed there: cells that touch the border are interpolated as if they were one pixel longer.); C59_coinciding_refuted (Coinciding destination points, or source points in rigid mode, divide by zero.)."
  },
  {
   "property": "C60",
   "status": "proved",
   "theorems": [
    "C60_inside",
    "C60_disjoint",
    "C60_order",
    "C60_rows",
    "C60_elements",
    "C60_no_padding",
    "C60_overflow_refuted",
    "C60_any_alignment_refuted",
    "C60_user_data_refuted"
   ],
   "note": "Claims refuted by a witness: C60_overflow_refuted (Without the 64-bit condition the claim fails: nothing guards the products against wrapping around, and elements fall outside of the (here empty) block.); C60_any_alignment_refuted (Any positive alignment compiles, but one that is no power of two does not align rows.); C60_user_data_refuted (Data given by the user is used with the padded steps even when it holds packed rows: elements fall outside of it.)."
  },
  {
   "property": "C61",
   "status": "proved",
   "theorems": [
    "C61_cumulativeSum_mod",
    "C61_cumulativeSum_length",
    "C61_cumulativeSum_exact_refuted"
   ],
   "note": "Claims refuted by a witness: C61_cumulativeSum_exact_refuted (although the output type is size_t, 8-bit inputs wrap at 256)."
  },
  {
   "property": "C62",
   "status": "proved",
   "theorems": [
    "C62_digit_count_int",
    "C62_digit_count_64bit_refuted"
   ],
   "note": "Claims refuted by a witness: C62_digit_count_64bit_refuted (beyond int the count is wrong (only the low 32 bits are tested) and INT_MIN is undefined)."
  },
  {
   "property": "C63",
   "status": "proved",
   "theorems": [
    "C63_irreflexive",
    "C63_transitive",
    "C63_incomparable_iff_equal_ignoring_case",
    "C63_lexicographic"
   ],
   "note": ""
  },
  {
   "property": "C66",
   "status": "proved",
   "theorems": [
    "C66_difference",
    "C66_merged"
   ],
   "note": ""
  },
  {
   "property": "C68",
   "status": "proved",
   "theorems": [
    "C68_binary",
    "C68_pixels",
    "C68_score",
    "C68_colour",
    "C68_idempotent",
    "C68_score_without_roi_refuted"
   ],
   "note": "Claims refuted by a witness: C68_score_without_roi_refuted."
  },
  {
   "property": "C69",
   "status": "proved",
   "theorems": [
    "C69_defined",
    "C69_decision",
    "C69_observed",
    "C69_updates",
    "C69_override",
    "C69_foreground_kept_out_refuted",
    "C69_normaliser",
    "C69_feedback",
    "C69_familiar",
    "C69_static"
   ],
   "note": "Claims refuted by a witness: C69_foreground_kept_out_refuted (That pixel need not be the one that is stored: a pixel found to be foreground enters its own background model in the same frame.)."
  },
  {
   "property": "C70",
   "status": "proved",
   "theorems": [
    "C70_connected",
    "C70_merged",
    "C70_limit",
    "C70_no_limit",
    "C70_requested",
    "C70_requested_fault",
    "C70_requested_refuted",
    "C70_labelled_refuted",
    "C70_count_refuted",
    "C70_small_refuted"
   ],
   "note": "Claims refuted by a witness: C70_requested_refuted; C70_labelled_refuted; C70_count_refuted; C70_small_refuted."
  },
  {
   "property": "C71",
   "status": "proved",
   "theorems": [
    "C71_matching",
    "C71_monotone",
    "C71_full_recall",
    "C71_perfect_precision_refuted",
    "C71_sweep",
    "C71_sweep_exact",
    "C71_sweep_refuted",
    "C71_best",
    "C71_cumulate",
    "C71_order",
    "C71_area",
    "C71_area_refuted"
   ],
   "note": "Claims refuted by a witness: C71_perfect_precision_refuted; C71_sweep_refuted (... and wrong otherwise, with the default 99 bins: the pixels of value 2 stay edges at the threshold 5); C71_area_refuted."
  },
  {
   "property": "C72",
   "status": "proved",
   "theorems": [
    "C72_defined",
    "C72_decision",
    "C72_provenance",
    "C72_updates",
    "C72_rate",
    "C72_refresh",
    "C72_static",
    "C72_static_border_refuted",
    "C72_small_fraction_refuted",
    "C72_infinite_rate_refuted",
    "C72_four_channels_refuted",
    "C72_background"
   ],
   "note": "Claims refuted by a witness: C72_static_border_refuted (Near the border it can be foreground at once: the first model is made from an image that is black outside of the region, so its textures are those of an edge.); C72_small_fraction_refuted (A fraction that is accepted may refresh nothing.); C72_infinite_rate_refuted (With an infinite learning rate, asked for to stop learning, the model still learns when rand() gives 0.); C72_four_channels_refuted (Images of 4 channels are accepted but read as if they had 3: a scene of one colour is foreground, far from any border.)."
  },
  {
   "property": "C64",
   "status": "proved",
   "theorems": [
    "C64_line",
    "C64_circle",
    "C64_line_metric",
    "C64_circle_metric",
    "C64_shorter",
    "C64_renumber",
    "C64_bounds",
    "C64_faults",
    "C64_totals_refuted"
   ],
   "note": "Claims refuted by a witness: C64_totals_refuted (between vectors of different totals, which only debug builds refuse, the circular distance can vanish)."
  },
  {
   "property": "C65",
   "status": "proved",
   "theorems": [
    "C65_distinct",
    "C65_refused",
    "C65_single",
    "C65_ends",
    "C65_table_refuted"
   ],
   "note": "Claims refuted by a witness: C65_table_refuted (refuted: a table that is asked for has the values of the image)."
  },
  {
   "property": "C73",
   "status": "proved",
   "theorems": [
    "C73_learned",
    "C73_weights",
    "C73_density",
    "C73_mixture",
    "C73_best",
    "C73_likeliest_refuted",
    "C73_init",
    "C73_any_mask_refuted",
    "C73_assign",
    "C73_all_assigned_refuted",
    "C73_relearn",
    "C73_round"
   ],
   "note": "Claims refuted by a witness: C73_likeliest_refuted (it is not the component the sample most likely belongs to: weights are ignored); C73_any_mask_refuted (so it does not accept every mask: four background pixels are too few for five components); C73_all_assigned_refuted."
  },
  {
   "property": "C74",
   "status": "proved",
   "theorems": [
    "C74_root",
    "C74_normalized",
    "C74_undefined",
    "C74_scale",
    "C74_invariant_refuted",
    "C74_distance",
    "C74_integers_erased",
    "C74_sparseness",
    "C74_sparseness_none",
    "C74_sparseness_refuted",
    "C74_sparseness_invariant"
   ],
   "note": "Claims refuted by a witness: C74_invariant_refuted; C74_sparseness_refuted (vectors of zeros are accepted, but have none)."
  },
  {
   "property": "C75",
   "status": "proved",
   "theorems": [
    "C75_faults",
    "C75_decision",
    "C75_refines",
    "C75_bounds",
    "C75_provenance",
    "C75_updates",
    "C75_override",
    "C75_refresh",
    "C75_table",
    "C75_table_rule",
    "C75_table_monotone",
    "C75_static",
    "C75_reset_few_samples",
    "C75_thin_images",
    "C75_still_refuted",
    "C75_static_region_refuted",
    "C75_still_later_refuted",
    "C75_infinite_rate_refuted"
   ],
   "note": "Claims refuted by a witness: C75_still_refuted (A still scene can be foreground in its own first image: a sample taken in the first row or column that is looked at has no texture.); C75_static_region_refuted (In a scene of one colour the pixel given as region of interest is foreground at once: its samples are black, taken from outside of the region.); C75_still_later_refuted (A still scene that was background can become foreground in the next frame: the thresholds of textures change, the textures of the samples are not computed again.); C75_infinite_rate_refuted (With an infinite learning rate, asked for to stop learning, the model still learns when rand() gives 0.)."
  },
  {
   "property": "C76",
   "status": "proved",
   "theorems": [
    "C76_initialize",
    "C76_dictionaries",
    "C76_refresh",
    "C76_few_samples",
    "C76_initialize_level",
    "C76_maps",
    "C76_illumination",
    "C76_initialize_again_refuted"
   ],
   "note": "Claims refuted by a witness: C76_initialize_again_refuted (An object that is initialized again keeps its pointers although its words are made anew: with an image of the same size an empty map of a global word is read, with a larger one a pointer to a word that is no more is followed.)."
  },
  {
   "property": "C77",
   "status": "proved",
   "theorems": [
    "C77_frame",
    "C77_familiar",
    "C77_unseen",
    "C77_contrast_refuted"
   ],
   "note": "Claims refuted by a witness: C77_contrast_refuted (Black against dark grey is one apart, and a frame shows it: after black, grey of 80 is all foreground, and the lighter grey of 86 is all background.)."
  },
  {
   "property": "C78",
   "status": "proved",
   "theorems": [
    "C78_bounds",
    "C78_table",
    "C78_moves",
    "C78_blinks",
    "C78_override_refuted"
   ],
   "note": "Claims refuted by a witness: C78_override_refuted (A caller that asks for an update rate of 2^63: twice the rate is zero in 64 bits.)."
  },
  {
   "property": "C79",
   "status": "proved",
   "theorems": [
    "C79_background",
    "C79_descriptor",
    "C79_no_background_refuted",
    "C79_descriptor_bits_refuted"
   ],
   "note": "Claims refuted by a witness: C79_no_background_refuted (A refresh that gives words no occurrences may leave a pixel none: its background is zero divided by zero.); C79_descriptor_bits_refuted (Descriptors are strings of bits, and their mean as numbers may have a bit that none of them has.)."
  },
  {
   "property": "C80",
   "status": "proved",
   "theorems": [
    "C80_exact",
    "C80_shape"
   ],
   "note": ""
  },
  {
   "property": "C81",
   "status": "proved",
   "theorems": [
    "C81_start",
    "C81_moves"
   ],
   "note": ""
  },
  {
   "property": "C82",
   "status": "proved",
   "theorems": [
    "C82_value",
    "C82_bound",
    "C82_minimizing",
    "C82_tables",
    "C82_exact_refuted",
    "C82_long_ranges_refuted"
   ],
   "note": "Claims refuted by a witness: C82_exact_refuted (The terms are not always the change of the energy: a move that lowers the energy can be charged as one that raises it.); C82_long_ranges_refuted (The constructor accepts up to 253 disparities, but the tables have 200 entries: with 253 disparities, as many pixels can be matched to one column, and then both the value and the terms of a move are read outside the tables.)."
  },
  {
   "property": "C83",
   "status": "proved",
   "theorems": [
    "C83_construct",
    "C83_position",
    "C83_zero_offset",
    "C83_outputs_refuted",
    "C83_starting_point_refuted"
   ],
   "note": "Claims refuted by a witness: C83_outputs_refuted (With disparities from 10 to 20, a pixel whose disparity is 10 is given out as 0, which is no label; and a pixel without disparity is given out as 11, which is one.); C83_starting_point_refuted (In debug builds no real label has an internal one, so that no labeling can be set as a starting point.)."
  },
  {
   "property": "C84",
   "status": "proved",
   "theorems": [
    "C84_projection",
    "C84_run",
    "C84_match_kept_refuted",
    "C84_no_occluded_refuted",
    "C84_occlusions",
    "C84_occlusions_refuted"
   ],
   "note": "Claims refuted by a witness: C84_match_kept_refuted (A pixel matched only with disparity 1 can end with disparity 0: at the edge of a region the median brings labels in from outside of it.); C84_no_occluded_refuted (Although occluded labels are switched off, the result can hold them.); C84_occlusions_refuted (So a pixel that nothing is matched to can end unmarked.)."
  },
  {
   "property": "C85",
   "status": "proved",
   "theorems": [
    "C85_setup",
    "C85_energy",
    "C85_table",
    "C85_pose",
    "C85_minimizer",
    "C85_finish"
   ],
   "note": ""
  },
  {
   "property": "C86",
   "status": "proved",
   "theorems": [
    "C86_members",
    "C86_energy",
    "C86_first_frame",
    "C86_raised_refuted"
   ],
   "note": "Claims refuted by a witness: C86_raised_refuted (from the second frame on, the best answer to the problem may raise the energy)."
  },
  {
   "property": "C87",
   "status": "proved",
   "theorems": [
    "C87_pass",
    "C87_edges",
    "C87_mean",
    "C87_correlation",
    "C87_entries",
    "C87_unit",
    "C87_inner",
    "C87_validated",
    "C87_validated_refuted",
    "C87_uniform"
   ],
   "note": "Claims refuted by a witness: C87_validated_refuted (but not for all pixels validateROI leaves: at the first one, some pairs inside the image are taken as outside)."
  },
  {
   "property": "C88",
   "status": "proved",
   "theorems": [
    "C88_dense",
    "C88_near",
    "C88_complete",
    "C88_reach",
    "C88_complete_refuted",
    "C88_rows",
    "C88_keyed",
    "C88_keyed_refuted",
    "C88_outside",
    "C88_stale_refuted",
    "C88_missing_refuted",
    "C88_one_ring"
   ],
   "note": "Claims refuted by a witness: C88_complete_refuted (the constructor also takes radii for which a point is counted, or not, depending on a pixel that is in no bin at all); C88_keyed_refuted (so that the map of the contour itself doubles the counts of a point that the contour passes twice); C88_stale_refuted (after a detectAndCompute without keypoints, the next dense map of an image of that size uses the keypoints of the image before: outside of a smaller one ...); C88_missing_refuted (... and not on all of a larger one)."
  },
  {
   "property": "C89",
   "status": "proved",
   "theorems": [
    "C89_image",
    "C89_mi",
    "C89_inside",
    "C89_image_symmetric",
    "C89_ssd",
    "C89_descriptors",
    "C89_symmetric",
    "C89_bounds",
    "C89_wanted_refuted",
    "C89_match_refuted",
    "C89_single"
   ],
   "note": "Claims refuted by a witness: C89_wanted_refuted (with patches, an entry other than -1 does not tell that the pixel is wanted ...); C89_match_refuted (... nor that its match is in the other image)."
  },
  {
   "property": "C90",
   "status": "proved",
   "theorems": [
    "C90_accepted",
    "C90_direction",
    "C90_outside",
    "C90_project",
    "C90_round_trip",
    "C90_centre",
    "C90_behind",
    "C90_right_angle_refuted",
    "C90_left_refuted",
    "C90_box",
    "C90_box_corners",
    "C90_full_box_refuted"
   ],
   "note": "Claims refuted by a witness: C90_right_angle_refuted (for every view there is a direction exactly at a right angle: it is not rejected, the projection divides by zero and converts the result to int); C90_left_refuted (for every view there is a direction seen one pixel left of the image, which is reported inside of it: the conversion to int goes towards zero); C90_full_box_refuted (a box as wide or as high as the view is documented as valid and passes the check, but always ends in an error)."
  },
  {
   "property": "C91",
   "status": "proved",
   "theorems": [
    "C91_invariant",
    "C91_create",
    "C91_wrap",
    "C91_wrap_refuted",
    "C91_go_to",
    "C91_turn",
    "C91_seek",
    "C91_tilt",
    "C91_sign",
    "C91_sign_refuted",
    "C91_wait",
    "C91_ends",
    "C91_still",
    "C91_clock",
    "C91_forward",
    "C91_idle_refuted",
    "C91_no_frame_refuted",
    "C91_restart_refuted",
    "C91_seek_refuted",
    "C91_update",
    "C91_update_refuted",
    "C91_make_refuted"
   ],
   "note": "Claims refuted by a witness: C91_wrap_refuted (angles beyond 180 that point backwards are stored as -180, which all conversions reject: afterwards no pixel can be followed); C91_sign_refuted; C91_idle_refuted (a motion is charged again by each later call, until the next motion); C91_no_frame_refuted (without a GetFrame in between, and after playing again, time can go backwards); C91_restart_refuted; C91_seek_refuted (setting the position to an earlier frame has no effect on the frame after the next call); C91_update_refuted; C91_make_refuted (the constructor checks members that are not yet set: good parameters may be refused and bad angles taken)."
  },
  {
   "property": "C92",
   "status": "proved",
   "theorems": [
    "C92_overlap",
    "C92_overlap_bounds",
    "C92_overlap_one",
    "C92_sums",
    "C92_means",
    "C92_processed",
    "C92_ratio_refuted",
    "C92_lost",
    "C92_behind",
    "C92_right_refuted",
    "C92_below_refuted",
    "C92_average_refuted",
    "C92_empty_refuted",
    "C92_stale_refuted",
    "C92_setup",
    "C92_entries",
    "C92_setup_refuted",
    "C92_init_box"
   ],
   "note": "Claims refuted by a witness: C92_ratio_refuted (but the ratio of processed frames is taken with one less: whenever the camera can be still, some session gives a ratio over 1, or divides by zero); C92_right_refuted (a target seen in the right part of an image that is wider than high counts as lost, however good the tracker); C92_below_refuted (a target below the image counts as seen, and its error enters the mean); C92_average_refuted (overlaps are summed over all frames but divided by the number of those not lost: a tracker that is always right has a mean over 1 as soon as one of its frames counts as lost); C92_empty_refuted (one frame with two empty boxes and the mean is not a number); C92_stale_refuted (when a corner of the target is behind the camera the tracker is compared with the box of an earlier frame); C92_setup_refuted (by default the test starts with the ground truth, and a test that ends before it is accepted, with a negative number of frames)."
  },
  {
   "property": "C93",
   "status": "proved",
   "theorems": [
    "C93_configurations",
    "C93_dense",
    "C93_rejects",
    "C93_rows",
    "C93_unlisted_refuted",
    "C93_same",
    "C93_unique",
    "C93_range",
    "C93_unit",
    "C93_distance",
    "C93_shift",
    "C93_border_refuted",
    "C93_faint_refuted",
    "C93_dynamic_refuted",
    "C93_blind_refuted"
   ],
   "note": "Claims refuted by a witness: C93_unlisted_refuted (a map made for keypoints holds the descriptors of the keypoints and nothing else: the rest of it is never written); C93_border_refuted (the descriptors of the border cannot be told from others: in an image without contrast all are the same); C93_faint_refuted (a patch that recurs nowhere can get the descriptor of one that recurs everywhere); C93_dynamic_refuted (the extractor says that it adapts to the noise; it uses the given level); C93_blind_refuted (with Lienhart's mask and one radial bin the descriptors do not depend on the image)."
  },
  {
   "property": "C94",
   "status": "proved",
   "theorems": [
    "C94_border",
    "C94_rounded",
    "C94_order",
    "C94_kept",
    "C94_rows",
    "C94_fraction_refuted",
    "C94_mi_sound",
    "C94_mi_accepts",
    "C94_mi_refuted",
    "C94_all",
    "C94_count",
    "C94_reshape_refuted",
    "C94_reshape",
    "C94_mask",
    "C94_mask_refuted",
    "C94_dasc_refuted",
    "C94_map",
    "C94_map_refuted",
    "C94_validate",
    "C94_validate_refuted"
   ],
   "note": "Claims refuted by a witness: C94_fraction_refuted (The filter rounds and the extractor truncates: a keypoint that was kept is described with pixels outside of the image.); C94_mi_refuted (The validation removes every computable keypoint that is nearer to the border than the whole window, not only half of it.); C94_reshape_refuted (These rows can never be brought back to the size of the image.); C94_mask_refuted (One at fractional coordinates can be described at a pixel that the mask excludes.); C94_dasc_refuted (The DASC extractor ignores the keypoints it is given for a map, and returns all the inner pixels in their place.); C94_map_refuted (At fractional coordinates, a one channel descriptor is put back at another pixel than the one it describes; a three channel one is not.); C94_validate_refuted (A keypoint in the last half pixel of a row makes the region be read outside of its bounds.)."
  },
  {
   "property": "C95",
   "status": "proved",
   "theorems": [
    "C95_video_frame",
    "C95_video_uniform",
    "C95_info",
    "C95_files",
    "C95_past_end",
    "C95_missing",
    "C95_past_end_refuted",
    "C95_wrap_refuted",
    "C95_image_list",
    "C95_image_parse",
    "C95_image_shown",
    "C95_image_past",
    "C95_gt_none",
    "C95_gt_shown"
   ],
   "note": "Claims refuted by a witness: C95_past_end_refuted (if it counts too few, a request behind the announced end is an error too, not an empty packet); C95_wrap_refuted (one request for the largest index makes the next one for frame 0 fail: the expected index has wrapped around to 0, so the reader is not moved)."
  },
  {
   "property": "C96",
   "status": "proved",
   "theorems": [
    "C96_arrays",
    "C96_after_other",
    "C96_packet_refuted",
    "C96_features",
    "C96_features_none",
    "C96_features_array",
    "C96_features_refuted",
    "C96_features_empty_refuted",
    "C96_wrong_info_refuted",
    "C96_other_info_refuted",
    "C96_outputs",
    "C96_outputs_refuted"
   ],
   "note": "Claims refuted by a witness: C96_packet_refuted (if the packed data of an index is requested after the array of another one, the array of that index is always released memory); C96_features_refuted (saving for the index that was loaded last has no effect on the next load); C96_features_empty_refuted (saving an empty matrix keeps the features saved before); C96_wrong_info_refuted (a load that fails for wrong packing information makes the next load with the right information give the released array of another index); C96_other_info_refuted (the same index with other packing information gives the array as it was unpacked before); C96_outputs_refuted (several streams of the single image type are saved where they are never loaded from)."
  },
  {
   "property": "C97",
   "status": "proved",
   "theorems": [
    "C97_unary",
    "C97_match_cost",
    "C97_sound",
    "C97_pairs",
    "C97_pair_costs",
    "C97_start_best",
    "C97_start_real",
    "C97_start_first",
    "C97_start_unmatched",
    "C97_perfect_match_refuted",
    "C97_no_texture_refuted",
    "C97_free_step_refuted",
    "C97_metric_refuted",
    "C97_accepts",
    "C97_whole_image_refuted"
   ],
   "note": "Claims refuted by a witness: C97_perfect_match_refuted (A pixel with a perfect match can start without match.); C97_no_texture_refuted (The same with equal regions: a pixel without texture near the border starts outside of the other image.); C97_free_step_refuted (Different disparities of neighbours can be free although the weight of the pair is not zero: costs lose their fractions.); C97_metric_refuted (Costs of pairs are not a distance: two small steps cost less than a large one.); C97_whole_image_refuted."
  },
  {
   "property": "C98",
   "status": "proved",
   "theorems": [
    "C98_packets",
    "C98_totals",
    "C98_tree_totals",
    "C98_errors",
    "C98_totals_exist",
    "C98_unprocessed_refuted",
    "C98_averages",
    "C98_averages_exist",
    "C98_names_refuted",
    "C98_reduced",
    "C98_reduced_average",
    "C98_pooled_refuted",
    "C98_disparity_averages",
    "C98_labels",
    "C98_labels_refuted"
   ],
   "note": "Claims refuted by a witness: C98_unprocessed_refuted (so the totals of a group are refused when a batch still has to be processed, unless that batch happens to come first; a single-stream evaluation counts it as nothing); C98_names_refuted (the names are those of the first part only: a name given later is lost, though the totals would have kept it); C98_pooled_refuted (it is not the metric of the counters of all streams, which the accumulator's own reduction gives); C98_labels_refuted (a stream may be named like the row of another one)."
  },
  {
   "property": "C99",
   "status": "proved",
   "theorems": [
    "C99_counts",
    "C99_over",
    "C99_rows",
    "C99_padding",
    "C99_validated",
    "C99_validated_refuted",
    "C99_block",
    "C99_block_refuted",
    "C99_reset_refuted",
    "C99_colours",
    "C99_colours_refuted"
   ],
   "note": "Claims refuted by a witness: C99_validated_refuted (frames of 320 by 240: one frame is enough to fail it, with any content); C99_block_refuted (not so between the limit the constructor accepts and twice a frame: the buffer ends up empty and the first frame fails); C99_reset_refuted (a reset does not start over: the frames before it are still counted); C99_colours_refuted."
  },
  {
   "property": "C100",
   "status": "proved",
   "theorems": [
    "C100_calls",
    "C100_loop",
    "C100_resume",
    "C100_rerun_refuted",
    "C100_past_end_refuted",
    "C100_no_truth_refuted",
    "C100_roi_refuted"
   ],
   "note": "Claims refuted by a witness: C100_rerun_refuted (so a batch cannot be processed twice: after the loop, initialising fails); C100_past_end_refuted (one call too many handles the last packet again, under an index that does not exist); C100_no_truth_refuted (a packet without ground truth is scored against the ground truth of two packets before); C100_roi_refuted (the evaluator scores every packet within the region of interest of the first one)."
  },
  {
   "property": "C101",
   "status": "proved",
   "theorems": [
    "C101_distance",
    "C101_color",
    "C101_matched",
    "C101_agreed",
    "C101_unmatched",
    "C101_unmatched_refuted",
    "C101_range",
    "C101_partner",
    "C101_back",
    "C101_contours",
    "C101_smoother",
    "C101_temporal",
    "C101_sound",
    "C101_layers_refuted"
   ],
   "note": "Claims refuted by a witness: C101_unmatched_refuted (so that even a pixel whose foreground costs nothing with a counterpart is background without one); C101_layers_refuted (both layers are blurred as one image: what a label costs in one frame depends on the densities of another)."
  },
  {
   "property": "C102",
   "status": "proved",
   "theorems": [
    "C102_hysteresis",
    "C102_monotone",
    "C102_default",
    "C102_unit_refuted",
    "C102_documented_refuted",
    "C102_votes",
    "C102_order",
    "C102_ends",
    "C102_flat",
    "C102_relative_refuted",
    "C102_kernel",
    "C102_kernel_refuted"
   ],
   "note": "Claims refuted by a witness: C102_unit_refuted (The documentation asks for thresholds between 0 and 1 and promises the default otherwise: those below 1 are all the same, and those above 1 are used.); C102_documented_refuted; C102_relative_refuted (So a confidence says nothing about thresholds: the faintest edge has confidence 255 if there is no stronger one, and is no edge at threshold 4.); C102_kernel_refuted (The half size of the intended kernel is used as its size: the kernel reaches less far on each side, for every deviation.)."
  },
  {
   "property": "C103",
   "status": "proved",
   "theorems": [
    "C103_same",
    "C103_runs",
    "C103_dropped_bins",
    "C103_offsets_refuted",
    "C103_dropped_pixels",
    "C103_thirds",
    "C103_patch_refuted",
    "C103_limits_refuted",
    "C103_offsets",
    "C103_two_threads_refuted",
    "C103_dispatch",
    "C103_rois_refuted"
   ],
   "note": "Claims refuted by a witness: C103_offsets_refuted (so that descriptors that differ can be at distance 0 on the graphics card); C103_patch_refuted (for all other odd patches up to 31 the graphics card can say that there is nothing to compare where the processor gives a distance); C103_limits_refuted (more than 254 offsets or larger patches are not refused by the processor, but there is no result from the graphics card); C103_two_threads_refuted (but what was uploaded is remembered by each host thread, and the device has one copy: with two threads one gets the offsets of the other); C103_rois_refuted (... but the function for the graphics card does not refuse a second region that is missing)."
  },
  {
   "property": "C104",
   "status": "proved",
   "theorems": [
    "C104_same_counts",
    "C104_same",
    "C104_blank_refuted",
    "C104_lockstep",
    "C104_lockstep_runs",
    "C104_order_refuted",
    "C104_barrier_refuted",
    "C104_keypoints_refuted",
    "C104_pixels",
    "C104_rounding",
    "C104_rounding_refuted",
    "C104_shared",
    "C104_shared_refuted"
   ],
   "note": "Claims refuted by a witness: C104_blank_refuted (a descriptor without votes becomes NaN on the graphics card, whatever the order; on the processor it becomes the even descriptor); C104_order_refuted (whenever there are more bins than threads there are orders with another result: 1 where the processor has the root of one half. The default extractor has 60 bins and 32 threads); C104_barrier_refuted (so do blocks of 64, 128, 256... threads with a bin for more than half of them: the first barrier comes too late); C104_keypoints_refuted (compute2 with keypoints: on the graphics card the other pixels get descriptors as well); C104_rounding_refuted (distances that end in one half are rounded to even there, but away from zero by the processor); C104_shared_refuted (larger blocks do, even without normalization, if there are up to 32 bins; blocks of 64 threads do with it)."
  },
  {
   "property": "C105",
   "status": "proved",
   "theorems": [
    "C105_covered",
    "C105_columns",
    "C105_kmeans",
    "C105_local",
    "C105_stateless",
    "C105_runs",
    "C105_uncovered_refuted",
    "C105_far_refuted",
    "C105_fault_refuted",
    "C105_lab",
    "C105_grey_refuted",
    "C105_black_refuted"
   ],
   "note": "Claims refuted by a witness: C105_uncovered_refuted (superpixels of 90 x 90 with 1024 threads in a block: the launch is accepted, but the last two rows of each cell have no threads; they keep what the surface held); C105_far_refuted (superpixels of 33 x 33: the rows of a block are 62 apart, those of a cell 33; the labels are of cells far from the pixel, whatever the frame); C105_fault_refuted (a weight of 300000: the corners of a 3x3 image find no superpixel closer than 100000, and add to superpixel -1); C105_grey_refuted (z is divided by its cube root: greys are not grey); C105_black_refuted (the darkness of a colour is tested after the cube root: black is -16)."
  },
  {
   "property": "C106",
   "status": "proved",
   "theorems": [
    "C106_scan",
    "C106_sizes",
    "C106_sizes_refuted",
    "C106_rows",
    "C106_exists",
    "C106_groups_refuted",
    "C106_merged",
    "C106_merged_refuted",
    "C106_merge",
    "C106_transpose"
   ],
   "note": "Claims refuted by a witness: C106_sizes_refuted; C106_groups_refuted (With the number of groups in the comment, images wider than two blocks keep columns that are never written: whatever was there stays.); C106_merged_refuted."
  },
  {
   "property": "C107",
   "status": "proved",
   "theorems": [
    "C107_preload",
    "C107_finishes",
    "C107_cells",
    "C107_writers",
    "C107_shared",
    "C107_median",
    "C107_corner_refuted",
    "C107_race",
    "C107_inside",
    "C107_order_refuted"
   ],
   "note": "Claims refuted by a witness: C107_corner_refuted (So the corner of a mask is always cleared, even if all of its pixels are set; cv::medianBlur, which the version without graphics card uses, repeats the pixels of the edge.); C107_order_refuted (The others depend on the order of the groups, with the default sizes of groups and blur: the same events give different masks.)."
  },
  {
   "property": "C108",
   "status": "proved",
   "theorems": [
    "C108_alive",
    "C108_stuck",
    "C108_distinct",
    "C108_reversible",
    "C108_periodic",
    "C108_hash",
    "C108_seed",
    "C108_neighbour",
    "C108_even",
    "C108_frame_refuted"
   ],
   "note": "Claims refuted by a witness: C108_frame_refuted (It is meant to stay in the frame. For no size of frame and no border does it.)."
  },
  {
   "property": "C109",
   "status": "proved",
   "theorems": [
    "C109_layout",
    "C109_texture",
    "C109_decision",
    "C109_provenance",
    "C109_elsewhere",
    "C109_ends",
    "C109_initial",
    "C109_static",
    "C109_coloured_refuted",
    "C109_tall_refuted",
    "C109_image",
    "C109_mask_refuted",
    "C109_pairs_refuted"
   ],
   "note": "Claims refuted by a witness: C109_coloured_refuted (The texture of samples at initialization mixes red and blue: in a uniform scene in which one of them exceeds the other by more than the threshold, all pixels are foreground in all frames and the model is never updated, although the scene is the one that the model was made from.); C109_tall_refuted (Refreshing the background only: for frames taller than wide, the mask is read outside of its buffer, whatever it holds.); C109_mask_refuted (A frame wider than tall, with one foreground pixel: it is refreshed, and another one is not, as the mask is read elsewhere.); C109_pairs_refuted (The colour and the texture go to samples chosen separately: a sample of the model may combine what was never seen together.)."
  },
  {
   "property": "C110",
   "status": "proved",
   "theorems": [
    "C110_check",
    "C110_add",
    "C110_add_submodular",
    "C110_subtract",
    "C110_normalize",
    "C110_normalize_refuted",
    "C110_zero",
    "C110_zero_submodular",
    "C110_upper",
    "C110_upper_refuted"
   ],
   "note": "Claims refuted by a witness: C110_normalize_refuted (The header says f'(S) = f(S) + psi(S): the constant is missing.); C110_upper_refuted (With a floating type numeric_limits<REAL>::min() is the smallest positive value (1 here, in units of it): bounds above all values of a negative table pass.)."
  },
  {
   "property": "C111",
   "status": "proved",
   "theorems": [
    "C111_next",
    "C111_visits",
    "C111_lower",
    "C111_early",
    "C111_early_refuted",
    "C111_cvpr14",
    "C111_progress",
    "C111_cvpr14_two",
    "C111_undefined",
    "C111_undefined_refuted",
    "C111_chen",
    "C111_chen_two"
   ],
   "note": "Claims refuted by a witness: C111_early_refuted; C111_undefined_refuted."
  },
  {
   "property": "C112",
   "status": "proved",
   "theorems": [
    "C112_capacity",
    "C112_push",
    "C112_push_keeps",
    "C112_push_capacity",
    "C112_tight",
    "C112_nonzero",
    "C112_self_refuted",
    "C112_empty",
    "C112_history",
    "C112_reset_alpha",
    "C112_bound",
    "C112_chen",
    "C112_cvpr14",
    "C112_fixed",
    "C112_fixed_refuted",
    "C112_unary",
    "C112_saturate",
    "C112_nodes",
    "C112_outside",
    "C112_outside_refuted"
   ],
   "note": "Claims refuted by a witness: C112_self_refuted (Not so for an arc from a node to itself, which the arc iterator offers: full for NonzeroCapacity, empty for ExchangeCapacity.); C112_fixed_refuted (The energy told is then no upper bound any more.); C112_outside_refuted."
  },
  {
   "property": "C113",
   "status": "proved",
   "theorems": [
    "C113_augment",
    "C113_history",
    "C113_shortcut_refuted",
    "C113_certificate",
    "C113_minimum",
    "C113_least",
    "C113_bound",
    "C113_init",
    "C113_energy",
    "C113_arcs",
    "C113_reverse",
    "C113_less_refuted",
    "C113_less",
    "C113_labels"
   ],
   "note": "Claims refuted by a witness: C113_shortcut_refuted (With a shortcut it is not so: the path through a clique twice takes the bottleneck twice from one set.); C113_less_refuted (operator<: arcs of the same clique are never ordered, so that different arcs need not be.)."
  },
  {
   "property": "C114",
   "status": "proved",
   "theorems": [
    "C114_energy",
    "C114_add_var",
    "C114_add_unary",
    "C114_add_clique",
    "C114_constant",
    "C114_constant_refuted",
    "C114_potts",
    "C114_label_refuted",
    "C114_initial",
    "C114_dual",
    "C114_fraction_refuted",
    "C114_height",
    "C114_height_diff",
    "C114_heights",
    "C114_table",
    "C114_post",
    "C114_round",
    "C114_chen",
    "C114_solve",
    "C114_completion_refuted",
    "C114_alpha",
    "C114_height_label",
    "C114_clip"
   ],
   "note": "Claims refuted by a witness: C114_constant_refuted; C114_label_refuted (GetLabel says it returns -1 before Solve.); C114_fraction_refuted; C114_completion_refuted."
  },
  {
   "property": "C115",
   "status": "proved",
   "theorems": [
    "C115_load",
    "C115_only",
    "C115_full",
    "C115_vap",
    "C115_kept",
    "C115_break",
    "C115_run",
    "C115_window",
    "C115_always",
    "C115_otherwise",
    "C115_otherwise_refuted",
    "C115_2014",
    "C115_2014_refuted",
    "C115_vap_only_refuted",
    "C115_pushes",
    "C115_pushes_subset",
    "C115_layers",
    "C115_pushes_full",
    "C115_pushes_full_refuted"
   ],
   "note": "Claims refuted by a witness: C115_otherwise_refuted; C115_2014_refuted; C115_vap_only_refuted (VAP with bEvalOnlyFrameSubset alone: all frames are loaded, but packets are looked up among those of the subset; packets of neighbouring frames are said to be at a break, here all from 3 on.); C115_pushes_full_refuted."
  },
  {
   "property": "C116",
   "status": "proved",
   "theorems": [
    "C116_small",
    "C116_small_depth",
    "C116_room",
    "C116_small_all",
    "C116_large",
    "C116_large_sample",
    "C116_large_uniform",
    "C116_kofn",
    "C116_exactly_k_refuted"
   ],
   "note": "Claims refuted by a witness: C116_exactly_k_refuted (but the distribution, up to the number after 1, may give 1 itself; a number that has to be taken is then left, and fewer than k are written)."
  },
  {
   "property": "C117",
   "status": "proved",
   "theorems": [
    "C117_nodes",
    "C117_edges",
    "C117_weight",
    "C117_selection",
    "C117_drawable",
    "C117_graph",
    "C117_feasible",
    "C117_pairs",
    "C117_counts",
    "C117_best",
    "C117_six",
    "C117_draws_refuted"
   ],
   "note": "Claims refuted by a witness: C117_draws_refuted (identical masks are matched in full with some draws and not with others)."
  },
  {
   "property": "C118",
   "status": "proved",
   "theorems": [
    "C118_key",
    "C118_pets",
    "C118_pets_other_refuted",
    "C118_pets_directory_refuted",
    "C118_wallflower",
    "C118_matcher",
    "C118_no_digits",
    "C118_packets",
    "C118_got",
    "C118_cleaned",
    "C118_directory_refuted"
   ],
   "note": "Claims refuted by a witness: C118_pets_other_refuted (but a file without the prefix gets a number as well, of what is behind the fifth character of its path); C118_pets_directory_refuted (and a directory with the prefix in its name hides all numbers: image_7/image_0012 and image_7/image_0034 are both frame 7); C118_directory_refuted (but digits of a directory count as well: below 00003, frame 3 has the ground truth of frame 1)."
  },
  {
   "property": "C119",
   "status": "proved",
   "theorems": [
    "C119_order",
    "C119_functor",
    "C119_functor_refuted",
    "C119_moves",
    "C119_passes",
    "C119_background_first",
    "C119_unchanged",
    "C119_updates",
    "C119_energy",
    "C119_stable",
    "C119_updates_refuted",
    "C119_labels_refuted"
   ],
   "note": "Claims refuted by a witness: C119_functor_refuted (but the don't care label is before itself, which std::sort does not allow); C119_updates_refuted (As configured, the segmentation may change without the stereo model ever being updated.); C119_labels_refuted (and a segmentation that is right from the start leaves all disparities but the first label untried)."
  },
  {
   "property": "C120",
   "status": "proved",
   "theorems": [
    "C120_squeeze",
    "C120_squeeze_sizes",
    "C120_basic",
    "C120_basic_refuted",
    "C120_sub",
    "C120_sub_one",
    "C120_sub_refuted",
    "C120_equal",
    "C120_nearly",
    "C120_nearly_refuted",
    "C120_empty",
    "C120_one_empty",
    "C120_concat"
   ],
   "note": "Claims refuted by a witness: C120_basic_refuted; C120_sub_refuted (but a negative dimension passes the assertions and writes in front of the ranges); C120_nearly_refuted (but views with gaps may be equal and not nearly equal, and nearly equal however different they are)."
  },
  {
   "property": "C121",
   "status": "proved",
   "theorems": [
    "C121_bilinear",
    "C121_pixel",
    "C121_round",
    "C121_between",
    "C121_before_refuted",
    "C121_jump_refuted",
    "C121_inside",
    "C121_everywhere",
    "C121_constant_refuted",
    "C121_diff",
    "C121_diff_bound",
    "C121_diff_refuted"
   ],
   "note": "Claims refuted by a witness: C121_before_refuted (but between -1 and 0 it extrapolates: for pixels 0 and 255, the value at -1/2 is -127.5, which as an integer is no byte); C121_jump_refuted (however fine the steps, the value jumps there by almost the difference of the first two pixels); C121_constant_refuted (BORDER_CONSTANT does not: it reads column -1 even for pixels of the last column); C121_diff_refuted (where it does, bytes may differ by more than a byte)."
  },
  {
   "property": "C122",
   "status": "proved",
   "theorems": [
    "C122_returned",
    "C122_stacked",
    "C122_whole",
    "C122_half_refuted",
    "C122_names",
    "C122_names_refuted"
   ],
   "note": "Claims refuted by a witness: C122_half_refuted (but at half size, no image of this dataset with more than one ground truth has any: the last assertion fails); C122_names_refuted (so folders of other images pass, where their name is inside of that of the image: folder 12 for image 112.jpg, and 112 for 1123.jpg)."
  },
  {
   "property": "C123",
   "status": "proved",
   "theorems": [
    "C123_parallel",
    "C123_switch",
    "C123_init",
    "C123_none",
    "C123_device",
    "C123_device_refuted"
   ],
   "note": "Claims refuted by a witness: C123_device_refuted (but the current device is shared: a second algorithm moves the first to its own, even one without the capabilities, which then is in use by nobody but the first)."
  },
  {
   "property": "C124",
   "status": "proved",
   "theorems": [
    "C124_limit",
    "C124_fits",
    "C124_square",
    "C124_fits_refuted",
    "C124_enlarged_refuted",
    "C124_flat_refuted",
    "C124_window",
    "C124_mouse",
    "C124_cursor",
    "C124_album"
   ],
   "note": "Claims refuted by a witness: C124_fits_refuted (but not within the default one); C124_enlarged_refuted (and with a limit higher than wide, images may be enlarged, beyond the limit); C124_flat_refuted (flat images are left with no height, so with tiles of no area)."
  },
  {
   "property": "C125",
   "status": "proved",
   "theorems": [
    "C125_initialize",
    "C125_counts",
    "C125_set",
    "C125_again",
    "C125_set_refuted",
    "C125_size_refuted",
    "C125_failed_refuted",
    "C125_argument_refuted"
   ],
   "note": "Claims refuted by a witness: C125_set_refuted (but setting a region whose pixels are all close to the border is accepted: no pixel is left in it, while the count of its pixels says there are); C125_size_refuted (nor has the size of a region set to be that of the image); C125_failed_refuted (a failed initialization can leave the new region for one input and the old one for the next); C125_argument_refuted (and a failed setting can change the array passed)."
  },
  {
   "property": "C126",
   "status": "proved",
   "theorems": [
    "C126_formats",
    "C126_inverse",
    "C126_formats_refuted",
    "C126_images",
    "C126_images_refuted",
    "C126_listing",
    "C126_prealloc",
    "C126_prealloc_refuted"
   ],
   "note": "Claims refuted by a witness: C126_formats_refuted (but matrices with three bytes per pixel come back with four); C126_images_refuted (so nine images of 4096x4096 with four floats each cannot be copied, though each of them can); C126_prealloc_refuted (sizes that are negative as positions add nothing)."
  }
 ]
}