{
 "claims": [
  {
   "property": "C01",
   "status": "proved",
   "theorems": [
    "C01_leap_year_is_calendar",
    "C01_leap_year_is_gregorian_rule",
    "C01_leap_year_rejects_non_integers"
   ],
   "note": ""
  },
  {
   "property": "C02",
   "status": "proved",
   "theorems": [
    "C02_mjd2000_counts_days",
    "C02_every_date_has_a_distance"
   ],
   "note": "Exact arithmetic; with rounding: C109, C111."
  },
  {
   "property": "C03",
   "status": "proved",
   "theorems": [
    "C03_mjd2000_rejects_invalid_dates",
    "C03_mjd2000_accepts_valid_dates",
    "C03_one_bad_date_fails_the_array"
   ],
   "note": ""
  },
  {
   "property": "C04",
   "status": "proved",
   "theorems": [
    "C04_mjd2000_strictly_increasing"
   ],
   "note": "Exact arithmetic; with rounding: C109, C111."
  },
  {
   "property": "C05",
   "status": "partial",
   "theorems": [
    "C05_dyear_round_trip",
    "C05_mjd_round_trip",
    "C05_round_trip_every_year_refuted"
   ],
   "note": "The round trips are proved for mjd2000 inside calendar years the code accepts; the claim for every year (including year 0 / years the datetime constructor rejects) is refuted by C05_round_trip_every_year_refuted. Exact arithmetic; with rounding: C111."
  },
  {
   "property": "C06",
   "status": "proved",
   "theorems": [
    "C06_affine_round_trip",
    "C06_affine_formula"
   ],
   "note": "Exact arithmetic; with rounding: C109, C111."
  },
  {
   "property": "C07",
   "status": "proved",
   "theorems": [
    "C07_floor_is_calendar_year",
    "C07_mjd_to_dyear_strictly_increasing",
    "C07_dyear_to_mjd_strictly_increasing",
    "C07_january_first"
   ],
   "note": "Exact arithmetic; with rounding: C109, C111."
  },
  {
   "property": "C08",
   "status": "proved",
   "theorems": [
    "C08_timestamp_inverts_mjd2000",
    "C08_mjd2000_of_timestamp_within_1ns"
   ],
   "note": "Exact arithmetic; with rounding: C110 (not exact)."
  },
  {
   "property": "C09",
   "status": "partial",
   "theorems": [
    "C09_every_four_digit_year_refuted",
    "C09_years_1708_to_2291_partial"
   ],
   "note": "The claim for every four-digit year is refuted (int64 nanosecond range); proved for years 1708 to 2291."
  },
  {
   "property": "C10",
   "status": "proved",
   "theorems": [
    "C10_configuration_is_always_valid"
   ],
   "note": ""
  },
  {
   "property": "C11",
   "status": "proved",
   "theorems": [
    "C11_rejected_assignment_changes_nothing",
    "C11_rejected_reset_changes_nothing",
    "C11_unknown_keys_are_rejected",
    "C11_unconvertible_values_are_rejected",
    "C11_reading_an_unknown_key_raises"
   ],
   "note": ""
  },
  {
   "property": "C12",
   "status": "proved",
   "theorems": [
    "C12_assignment_stores_the_converted_value",
    "C12_assignment_touches_one_key",
    "C12_reassigning_what_was_read_changes_nothing",
    "C12_typed_values_are_stored_exactly",
    "C12_integers_become_floats",
    "C12_lists_become_vectors",
    "C12_vectors_of_wrong_length_are_rejected",
    "C12_item_assignment_touches_one_key"
   ],
   "note": ""
  },
  {
   "property": "C13",
   "status": "proved",
   "theorems": [
    "C13_context_restores",
    "C13_context_exit_succeeds"
   ],
   "note": "Bodies that modify a configuration array in place are excluded (see C17)."
  },
  {
   "property": "C14",
   "status": "partial",
   "theorems": [
    "C14_context_restores_on_exception_refuted",
    "C14_exception_leaves_the_state_of_the_body_partial"
   ],
   "note": "False of the code: context() has no try/finally. Refuted; the partial theorem says what happens instead."
  },
  {
   "property": "C15",
   "status": "partial",
   "theorems": [
    "C15_load_is_atomic_refuted",
    "C15_failed_load_assigns_a_prefix_partial",
    "C15_unreadable_files_change_nothing",
    "C15_load_assigns_all_entries_in_order"
   ],
   "note": "False of the code: load assigns entries one by one. Refuted; the partial theorem gives the exact prefix behaviour."
  },
  {
   "property": "C16",
   "status": "partial",
   "theorems": [
    "C16_load_after_save_keeps_all_but_pathlib_paths_partial",
    "C16_save_load_round_trip_partial",
    "C16_save_load_round_trip_refuted"
   ],
   "note": "False in general: a path key accepts pathlib.Path objects, which save() writes as null, so loading gives None (C16_save_load_round_trip_refuted). Proved: everything else is reproduced (vectors must not be NumPy object arrays; saved paths must exist when loading) and pathlib paths come back as None."
  },
  {
   "property": "C17",
   "status": "partial",
   "theorems": [
    "C17_reset_restores_defaults_refuted",
    "C17_fullreset_restores_defaults_refuted",
    "C17_reset_restores_defaults_partial",
    "C17_fullreset_restores_defaults_partial",
    "C17_reset_stores_a_copy",
    "C17_initial_configuration_is_the_default"
   ],
   "note": "False of the code: the initial configuration and fullreset share the default arrays, so in-place changes reach the defaults. Refuted; proved for histories without in-place modification and for reset copies."
  },
  {
   "property": "C18",
   "status": "proved",
   "theorems": [
    "C18_synthesis_reads_documented_positions",
    "C18_every_position_is_used",
    "C18_positions_are_distinct"
   ],
   "note": ""
  },
  {
   "property": "C19",
   "status": "proved",
   "theorems": [
    "C19_design_columns_are_the_coefficients_needed",
    "C19_degree_inferred_from_the_number_of_coefficients",
    "C19_degree_inferred_for_given_order",
    "C19_defaults"
   ],
   "note": "With rounding: C112."
  },
  {
   "property": "C20",
   "status": "proved",
   "theorems": [
    "C20_entries_are_schmidt_functions",
    "C20_degree_zero_raises"
   ],
   "note": ""
  },
  {
   "property": "C21",
   "status": "proved",
   "theorems": [
    "C21_upper_entries_are_theta_derivatives",
    "C21_derivative_of_the_returned_table"
   ],
   "note": ""
  },
  {
   "property": "C22",
   "status": "proved",
   "theorems": [
    "C22_squares_sum_to_one",
    "C22_entries_bounded"
   ],
   "note": ""
  },
  {
   "property": "C23",
   "status": "proved",
   "theorems": [
    "C23_equator_reflection",
    "C23_north_pole",
    "C23_south_pole"
   ],
   "note": ""
  },
  {
   "property": "C24",
   "status": "proved",
   "theorems": [
    "C24_synthesis_is_design_matrix_times_coefficients"
   ],
   "note": ""
  },
  {
   "property": "C25",
   "status": "proved",
   "theorems": [
    "C25_field_is_minus_gradient_of_potential",
    "C25_valid_input_succeeds"
   ],
   "note": ""
  },
  {
   "property": "C26",
   "status": "proved",
   "theorems": [
    "C26_linear"
   ],
   "note": ""
  },
  {
   "property": "C27",
   "status": "proved",
   "theorems": [
    "C27_pole_values_are_meridional_limits"
   ],
   "note": ""
  },
  {
   "property": "C28",
   "status": "proved",
   "theorems": [
    "C28_degree_range_is_zero_padding"
   ],
   "note": ""
  },
  {
   "property": "C29",
   "status": "partial",
   "theorems": [
    "C29_colatitudes_outside_rejected_refuted",
    "C29_colatitudes_outside_rejected_partial",
    "C29_scalar_colatitude_outside_rejected"
   ],
   "note": "The claim as worded is refuted: when some colatitude is exactly 0 or 180 the other colatitudes of the array are not range-checked. Proved for arrays without an exact pole and for every scalar."
  },
  {
   "property": "C30",
   "status": "proved",
   "theorems": [
    "C30_each_element_is_the_scalar_evaluation",
    "C30_grid_is_the_outer_product"
   ],
   "note": ""
  },
  {
   "property": "C31",
   "status": "proved",
   "theorems": [
    "C31_longitude_periodicity",
    "C31_zonal_fields_do_not_depend_on_longitude"
   ],
   "note": ""
  },
  {
   "property": "C32",
   "status": "proved",
   "theorems": [
    "C32_unknown_source_raises",
    "C32_empty_degree_range_raises",
    "C32_unknown_source_is_a_ValueError",
    "C32_unknown_source_is_a_ValueError_in_design_gauss",
    "C32_exceptions_for_degree_ranges",
    "C32_exception_for_shapes",
    "C32_too_few_coefficients_raises",
    "C32_incompatible_shapes_raise",
    "C32_no_points_raises"
   ],
   "note": ""
  },
  {
   "property": "C33",
   "status": "proved",
   "theorems": [
    "C33_design_matrix_predicts_the_field",
    "C33_valid_input_succeeds",
    "C33_static_degree_below_time_dependent_degree_raises",
    "C33_exceptions_for_the_static_degree"
   ],
   "note": ""
  },
  {
   "property": "C34",
   "status": "proved",
   "theorems": [
    "C34_end_breaks_repeated",
    "C34_sorted_breaks_give_sorted_knots",
    "C34_no_breaks_raises"
   ],
   "note": ""
  },
  {
   "property": "C35",
   "status": "proved",
   "theorems": [
    "C35_internal_spectrum",
    "C35_external_spectrum",
    "C35_toroidal_spectrum",
    "C35_valid_input_succeeds",
    "C35_unknown_source_raises",
    "C35_unknown_source_is_a_ValueError",
    "C35_other_axes_are_independent",
    "C35_negative_axis_counts_from_the_end",
    "C35_default_radius_is_the_surface"
   ],
   "note": ""
  },
  {
   "property": "C36",
   "status": "proved",
   "theorems": [
    "C36_nonnegative_and_zero_exactly_without_coefficients",
    "C36_quadratic",
    "C36_depends_only_on_the_coefficients_of_the_degree",
    "C36_internal_radius_law"
   ],
   "note": ""
  },
  {
   "property": "C37",
   "status": "proved",
   "theorems": [
    "C37_value_range_and_nan",
    "C37_same_size_succeeds",
    "C37_symmetric",
    "C37_self_correlation_is_one",
    "C37_positive_scaling",
    "C37_other_shapes_raise",
    "C37_other_sizes_raise"
   ],
   "note": ""
  },
  {
   "property": "C38",
   "status": "partial",
   "theorems": [
    "C38_sensitivity_of_identical_models_refuted",
    "C38_sensitivity_formula",
    "C38_sensitivity_of_identical_models_partial",
    "C38_same_size_succeeds",
    "C38_scaling_both_models"
   ],
   "note": "Refuted as worded: a degree whose true coefficients all vanish gives 0*inf = NaN. Proved for degrees with power."
  },
  {
   "property": "C39",
   "status": "proved",
   "theorems": [
    "C39_inside_times_follow_their_piece",
    "C39_intervals_partition_the_period",
    "C39_documented_calls_succeed"
   ],
   "note": ""
  },
  {
   "property": "C40",
   "status": "proved",
   "theorems": [
    "C40_derivative_per_year"
   ],
   "note": ""
  },
  {
   "property": "C41",
   "status": "proved",
   "theorems": [
    "C41_off_is_nan_exactly_outside",
    "C41_constant_is_the_end_value",
    "C41_linear_is_the_tangent"
   ],
   "note": ""
  },
  {
   "property": "C42",
   "status": "partial",
   "theorems": [
    "C42_spline_extrapolation_refuted",
    "C42_extrapolation_without_factorials",
    "C42_spline_extrapolation_partial"
   ],
   "note": "Refuted: the extrapolation omits the factorials of the Taylor series (order 3 and more). Exact behaviour and the case of orders one and two are proved."
  },
  {
   "property": "C43",
   "status": "partial",
   "theorems": [
    "C43_independence_of_other_times_refuted",
    "C43_independence_of_other_times_partial"
   ],
   "note": "Refuted for derivatives at exactly the last break when another requested time is outside; proved otherwise."
  },
  {
   "property": "C44",
   "status": "proved",
   "theorems": [
    "C44_last_rows_kept",
    "C44_single_break_duplicated",
    "C44_empty_model_raises",
    "C44_static_model_is_constant"
   ],
   "note": ""
  },
  {
   "property": "C45",
   "status": "partial",
   "theorems": [
    "C45_unknown_method_reported_refuted",
    "C45_unknown_method_reported_partial"
   ],
   "note": "Refuted when all times are inside the model period (the method is not looked at); proved when some time is outside."
  },
  {
   "property": "C46",
   "status": "partial",
   "theorems": [
    "C46_last_break_refuted",
    "C46_coefficients_and_other_breaks_partial"
   ],
   "note": "Refuted as stated: the last break of an order-1 model is not written, so the imported model ends with a zero-length piece. Proved for everything else: coefficients of every piece to 0.5e-8, other breaks to 2e-6 days, through the text of the file."
  },
  {
   "property": "C47",
   "status": "proved",
   "theorems": [
    "C47_round_trip",
    "C47_times_within_two_microdays",
    "C47_row_labels"
   ],
   "note": ""
  },
  {
   "property": "C48",
   "status": "partial",
   "theorems": [
    "C48_failing_save_keeps_file_refuted",
    "C48_scalar_time_refuted",
    "C48_early_errors_keep_files_partial",
    "C48_other_files_untouched_partial"
   ],
   "note": "Partial because the code refutes the full claim: save_shcfile opens (truncates) the file before it has checked everything, so a later error destroys the old file; errors before the file is opened, and all other files, are safe."
  },
  {
   "property": "C49",
   "status": "proved",
   "theorems": [
    "C49_azimuth_is_the_representative_in_range",
    "C49_idempotent"
   ],
   "note": ""
  },
  {
   "property": "C50",
   "status": "proved",
   "theorems": [
    "C50_local_time_is_shifted_universal_time"
   ],
   "note": ""
  },
  {
   "property": "C51",
   "status": "proved",
   "theorems": [
    "C51_radius_is_the_norm_and_angles_in_range",
    "C51_spherical_undoes_cartesian",
    "C51_cartesian_undoes_spherical",
    "C51_meaning"
   ],
   "note": ""
  },
  {
   "property": "C52",
   "status": "proved",
   "theorems": [
    "C52_zenith_angle_is_the_angle_to_the_sun",
    "C52_antipodes_are_supplementary"
   ],
   "note": ""
  },
  {
   "property": "C53",
   "status": "proved",
   "theorems": [
    "C53_axis_is_a_unit_vector_opposite_to_the_dipole",
    "C53_pole_position_gives_the_same_axis",
    "C53_other_counts_raise",
    "C53_igrf_dipole"
   ],
   "note": ""
  },
  {
   "property": "C54",
   "status": "proved",
   "theorems": [
    "C54_gsm",
    "C54_sm",
    "C54_mag",
    "C54_gsm_and_sm_always_defined",
    "C54_frames_are_unique",
    "C54_use",
    "C54_use_raises_exactly_at_poles"
   ],
   "note": ""
  },
  {
   "property": "C55",
   "status": "proved",
   "theorems": [
    "C55_geo_to_base_resolves",
    "C55_round_trip",
    "C55_angles_preserved",
    "C55_transform_points",
    "C55_transform_points_round_trip"
   ],
   "note": ""
  },
  {
   "property": "C56",
   "status": "proved",
   "theorems": [
    "C56_vectors_rotate_with_the_frame",
    "C56_horizontal_length_preserved",
    "C56_round_trip",
    "C56_fails_exactly_at_poles",
    "C56_unknown_reference_raises",
    "C56_missing_reference_raises"
   ],
   "note": ""
  },
  {
   "property": "C57",
   "status": "proved",
   "theorems": [
    "C57_point_on_the_normal",
    "C57_unique",
    "C57_components"
   ],
   "note": ""
  },
  {
   "property": "C58",
   "status": "proved",
   "theorems": [
    "C58_round_trip_above_the_ellipsoid",
    "C58_round_trip_general",
    "C58_geodetic_coordinates_of_any_point",
    "C58_components_round_trip"
   ],
   "note": ""
  },
  {
   "property": "C59",
   "status": "partial",
   "theorems": [
    "C59_accepted_times",
    "C59_ranges_partial",
    "C59_early_times_are_accepted_refuted"
   ],
   "note": "Refuted for early times: the code subtracts instead of adding the years in the second test, so no early time is ever rejected. The exact set of accepted times and the ranges of the results are proved."
  },
  {
   "property": "C60",
   "status": "partial",
   "theorems": [
    "C60_matrix_is_the_real_signal",
    "C60_scaled_and_unscaled_files_agree",
    "C60_documented_frequency_vector_refuted",
    "C60_flag_read_from_file_refuted",
    "C60_true_flag_read_from_file"
   ],
   "note": "Proved for per-element frequencies and a Python bool flag. Refuted: the documented 1-D frequency vector raises (the reshape result is discarded, coordinate_utils.py:242), and a False flag loaded from an npz file is a 0-d array, for which 'scaled is False' is never true (chaos.py passes exactly that)."
  },
  {
   "property": "C61",
   "status": "proved",
   "theorems": [
    "C61_no_response_without_positive_frequency",
    "C61_response_is_elementwise",
    "C61_shape"
   ],
   "note": ""
  },
  {
   "property": "C62",
   "status": "proved",
   "theorems": [
    "C62_call_is_the_sum_of_the_listed_sources",
    "C62_call_succeeds_when_its_sources_do",
    "C62_complete_model_can_be_evaluated",
    "C62_exception_of_a_listed_source_is_passed_on",
    "C62_order_and_repetition_do_not_matter",
    "C62_shorthands",
    "C62_single_source"
   ],
   "note": ""
  },
  {
   "property": "C63",
   "status": "partial",
   "theorems": [
    "C63_unknown_source_refuted",
    "C63_methods_report_unknown_sources",
    "C63_unknown_source_of_coefficients_is_a_ValueError"
   ],
   "note": "False of CHAOS.__call__: an unknown source name gives an all-zero field without an error. Refuted for every unknown name; proved for the methods synth_*_gsm/sm."
  },
  {
   "property": "C64",
   "status": "proved",
   "theorems": [
    "C64_gsm_coefficients",
    "C64_sm_external_coefficients",
    "C64_sm_internal_coefficients",
    "C64_gsm_all_is_external_plus_internal",
    "C64_sm_all_is_external_plus_internal",
    "C64_default_is_all",
    "C64_values_are_the_field_of_the_coefficients",
    "C64_smaller_degree_is_a_prefix"
   ],
   "note": ""
  },
  {
   "property": "C65",
   "status": "proved",
   "theorems": [
    "C65_internal_parts_are_reproduced",
    "C65_reloaded_model_evaluates_the_same",
    "C65_reloaded_static_field_is_the_same",
    "C65_internal_models_can_be_saved_and_loaded",
    "C65_complete_models_can_be_saved_and_loaded"
   ],
   "note": "hdf5storage itself is not modelled (arrays come back unchanged)."
  },
  {
   "property": "C66",
   "status": "partial",
   "theorems": [
    "C66_external_part_partial",
    "C66_sm_coefficients_evaluate_the_same",
    "C66_gsm_coefficients_refuted",
    "C66_one_interval_cannot_be_loaded_refuted"
   ],
   "note": "SM coefficients and corrections are reproduced and evaluate the same. Refuted: GSM coefficients other than positions 0 and 3 are silently lost; a model whose q11/s11 corrections have one interval is written to a file that cannot be loaded."
  },
  {
   "property": "C67",
   "status": "proved",
   "theorems": [
    "C67_igrf_interpolates_linearly",
    "C67_igrf_january_first"
   ],
   "note": "Proved from the text of the file, for epochs in 1708..2288 (range of the calendar conversion)."
  },
  {
   "property": "C68",
   "status": "partial",
   "theorems": [
    "C68_covobs_keeps_every_coefficient_partial",
    "C68_covobs_order_one_refuted",
    "C68_gufm1_keeps_every_coefficient",
    "C68_cals7k_keeps_every_coefficient"
   ],
   "note": "Orders 2 and more (gufm1 and CALS7K: always 4) proved from the text of the file. Refuted for COV-OBS files of order one: coeffs[0:-0] is empty, so that the coefficients are lost (two knots) or the file is rejected."
  },
  {
   "property": "C69",
   "status": "proved",
   "theorems": [
    "C69_user_values_win_defaults_fill",
    "C69_result_is_a_dictionary"
   ],
   "note": ""
  },
  {
   "property": "C70",
   "status": "partial",
   "theorems": [
    "C70_array_after_plotting",
    "C70_data_unchanged_refuted",
    "C70_spectrum_shown"
   ],
   "note": "False of the code: zeros in the caller's array are replaced by NaN. Proved: everything else stays as it is, so arrays without zeros are unchanged."
  },
  {
   "property": "C71",
   "status": "partial",
   "theorems": [
    "C71_units",
    "C71_labels_differ",
    "C71_documented_label_refuted"
   ],
   "note": "Labels proved, pairwise different. The label for deriv=1 differs from the documented one by doubled braces (a format string that is never formatted)."
  },
  {
   "property": "C72",
   "status": "proved",
   "theorems": [
    "C72_field_is_divergence_free"
   ],
   "note": ""
  },
  {
   "property": "C73",
   "status": "partial",
   "theorems": [
    "C73_mapping_interface_validates_refuted"
   ],
   "note": "False of the code: dict.update is inherited and stores without a check."
  },
  {
   "property": "C74",
   "status": "proved",
   "theorems": [
    "C74_partition_of_unity",
    "C74_outside_is_nan",
    "C74_valid_input_succeeds",
    "C74_any_knots"
   ],
   "note": ""
  },
  {
   "property": "C75",
   "status": "proved",
   "theorems": [
    "C75_collocation_entries_are_bsplines",
    "C75_derivative_entries"
   ],
   "note": "SciPy's de Boor evaluation is modelled; theorem relates it to the Cox-de Boor recursion."
  },
  {
   "property": "C76",
   "status": "partial",
   "theorems": [
    "C76_piecewise_polynomial_is_the_spline",
    "C76_model_from_spline_evaluates_the_spline",
    "C76_repeated_inner_knots_refuted"
   ],
   "note": "Proved for the knots of augment_breaks; refuted for repeated inner knots, which the documentation does not exclude. SciPy evaluation modelled."
  },
  {
   "property": "C77",
   "status": "proved",
   "theorems": [
    "C77_exported_samples",
    "C77_samples_determine_the_model"
   ],
   "note": "The samples determine the model; the least-squares fit of from_shc itself is in C93."
  },
  {
   "property": "C78",
   "status": "proved",
   "theorems": [
    "C78_field_and_derivatives_inside_the_period",
    "C78_without_extrapolation_nan_exactly_outside",
    "C78_valid_input_succeeds"
   ],
   "note": ""
  },
  {
   "property": "C79",
   "status": "proved",
   "theorems": [
    "C79_synth_from_pp_is_the_model_without_extrapolation"
   ],
   "note": ""
  },
  {
   "property": "C80",
   "status": "proved",
   "theorems": [
    "C80_sun_direction",
    "C80_obliquity_is_acute_at_all_modern_times"
   ],
   "note": ""
  },
  {
   "property": "C81",
   "status": "partial",
   "theorems": [
    "C81_odd_series_is_reproduced",
    "C81_even_series_error_partial",
    "C81_even_series_refuted",
    "C81_start_date_partial",
    "C81_start_date_refuted"
   ],
   "note": "Proved exactly for odd N and start_date 0. Refuted for even N (the default N is even): the Nyquist component is doubled, error = (-1)^j * alternating mean, proved for all even N; refuted for start_date != 0, which synth_rotate_gauss does not know."
  },
  {
   "property": "C82",
   "status": "proved",
   "theorems": [
    "C82_filter_keeps_the_largest_components",
    "C82_more_components_than_there_are_raises"
   ],
   "note": ""
  },
  {
   "property": "C83",
   "status": "proved",
   "theorems": [
    "C83_induced_part_is_smaller_than_inducing",
    "C83_response_solves_the_induction_equation",
    "C83_insulating_earth_does_not_respond",
    "C83_refining_the_file_changes_nothing",
    "C83_penetration_depth_positive",
    "C83_row_of_coefficient"
   ],
   "note": ""
  },
  {
   "property": "C84",
   "status": "proved",
   "theorems": [
    "C84_other_dipole_is_rejected",
    "C84_other_dipole_is_an_AssertionError",
    "C84_call_with_other_dipole_is_rejected"
   ],
   "note": ""
  },
  {
   "property": "C85",
   "status": "proved",
   "theorems": [
    "C85_default_index_is_interpolated",
    "C85_interpolation_is_unique",
    "C85_times_outside_the_table_are_rejected"
   ],
   "note": ""
  },
  {
   "property": "C86",
   "status": "partial",
   "theorems": [
    "C86_gsm_without_static_refuted"
   ],
   "note": "False of the code: synth_coeffs_gsm reads model_static.breaks, so a GSM-only model raises AttributeError. Refuted for every such model."
  },
  {
   "property": "C87",
   "status": "partial",
   "theorems": [
    "C87_angles_of_a_satellite",
    "C87_evaluation_succeeds",
    "C87_unknown_satellite_is_reported",
    "C87_missing_meta_refuted"
   ],
   "note": "Values, success and unknown satellites are proved. Refuted: with meta=None the constructor raises TypeError (only KeyError is caught)."
  },
  {
   "property": "C88",
   "status": "proved",
   "theorems": [
    "C88_static_field",
    "C88_missing_parts_are_reported",
    "C88_missing_external_parts_are_ValueErrors",
    "C88_missing_rotation_files_are_reported"
   ],
   "note": ""
  },
  {
   "property": "C89",
   "status": "partial",
   "theorems": [
    "C89_euler_angles_are_reproduced",
    "C89_euler_angles_evaluate_the_same",
    "C89_missing_params_refuted"
   ],
   "note": "Reproduced for two or more satellites with different numbers of intervals (otherwise NumPy stacks the cells; not modelled). Refuted: without params in the file loading raises although only a warning is announced."
  },
  {
   "property": "C90",
   "status": "partial",
   "theorems": [
    "C90_names",
    "C90_names_are_distinct",
    "C90_clash_refuted",
    "C90_caller_list_is_changed_refuted"
   ],
   "note": "Positions of names proved. Refuted: generic names may clash with user names; the caller's list is extended in place."
  },
  {
   "property": "C91",
   "status": "partial",
   "theorems": [
    "C91_other_parts_are_kept",
    "C91_stale_part_refuted",
    "C91_failed_save_refuted"
   ],
   "note": "False of the code: parts the model lacks stay in an existing file and come back on loading; a failing save leaves a partly written file."
  },
  {
   "property": "C92",
   "status": "partial",
   "theorems": [
    "C92_calibration_partial",
    "C92_several_satellites_refuted"
   ],
   "note": "One satellite: values reproduced but the name becomes cryosat-2_1; several satellites: the file cannot be loaded."
  },
  {
   "property": "C93",
   "status": "proved",
   "theorems": [
    "C93_samples_of_splines",
    "C93_sites_determine_the_spline",
    "C93_order_two_is_linear_interpolation",
    "C93_least_squares_fit"
   ],
   "note": "scipy.interpolate.make_lsq_spline is a parameter under the contract least_squares (Spec_Lsq), which a Gram-Schmidt solver is shown to meet; exact arithmetic."
  },
  {
   "property": "C94",
   "status": "partial",
   "theorems": [
    "C94_smooth_models",
    "C94_smooth_models_with_rounded_values",
    "C94_order_two_with_rounding",
    "C94_kinks_are_lost_refuted"
   ],
   "note": "Proved for models with K-2 continuous derivatives: exact if the sampled numbers have at most eight decimals, with an error bound at all times for values of any number of decimals (sampled decimal years still exact), and for order 2 with rounding of values and times. False of the code for models with fewer continuous derivatives: a kink is lost, for any fit (_refuted). Missing: error bounds for orders 3 and more when the sampled times are rounded too."
  },
  {
   "property": "C95",
   "status": "partial",
   "theorems": [
    "C95_missing_parts_are_reported",
    "C95_defaults",
    "C95_unknown_part_refuted",
    "C95_static_part_alone_refuted"
   ],
   "note": "Missing parts are reported with ValueError and no file is touched. False of the code: an unknown part name is silently ignored (nothing written, no exception), and a model with only a static part cannot be exported (AttributeError)."
  },
  {
   "property": "C96",
   "status": "partial",
   "theorems": [
    "C96_time_dependent_part",
    "C96_piecewise_constant_part",
    "C96_static_part",
    "C96_single_piece_refuted"
   ],
   "note": "Proved for smooth time-dependent parts with exactly representable numbers, for piecewise constant parts with two or more pieces (last break excepted, C46) and for static parts. False of the code for a time-dependent part with a single piece of order one, which comes back as static part."
  },
  {
   "property": "C97",
   "status": "partial",
   "theorems": [
    "C97_timeseries_shows_every_component",
    "C97_maps_show_every_component",
    "C97_wrong_layout_is_reported",
    "C97_too_few_titles_refuted",
    "C97_title_string_refuted"
   ],
   "note": "Proved if no title list is passed or one of sufficient length. False of the code otherwise: zip stops at the shortest list, so components without a title are dropped without an exception; a string is iterated by characters."
  },
  {
   "property": "C98",
   "status": "partial",
   "theorems": [
    "C98_default_limit",
    "C98_limits_cover_each_panel_refuted"
   ],
   "note": "The limits of the caller or of the first component are used for all panels (proved in C97_maps_show_every_component and C98_default_limit). False of the code that they cover the other panels."
  },
  {
   "property": "C99",
   "status": "partial",
   "theorems": [
    "C99_timeseries_of_a_model",
    "C99_timeseries_shows_the_field",
    "C99_maps_show_the_field",
    "C99_degree_in_the_title_refuted",
    "C99_power_spectrum_of_a_model"
   ],
   "note": "Proved for the contents, units and titles. False of the code: with nmax above the degree of the model the title of the map states the degree asked for, not the one shown."
  },
  {
   "property": "C100",
   "status": "proved",
   "theorems": [
    "C100_missing_parts_are_reported",
    "C100_static_maps",
    "C100_external_maps_sum",
    "C100_external_maps_one_part",
    "C100_unknown_reference_is_reported"
   ],
   "note": ""
  },
  {
   "property": "C101",
   "status": "proved",
   "theorems": [
    "C101_coefficients_are_recovered",
    "C101_small_kmax_is_ignored",
    "C101_degree_zero_raises"
   ],
   "note": ""
  },
  {
   "property": "C102",
   "status": "proved",
   "theorems": [
    "C102_too_few_points",
    "C102_enough_points"
   ],
   "note": ""
  },
  {
   "property": "C103",
   "status": "proved",
   "theorems": [
    "C103_same_function_in_both_systems",
    "C103_degree_zero_raises"
   ],
   "note": ""
  },
  {
   "property": "C104",
   "status": "proved",
   "theorems": [
    "C104_degrees_do_not_mix",
    "C104_truncation_only_cuts"
   ],
   "note": ""
  },
  {
   "property": "C105",
   "status": "proved",
   "theorems": [
    "C105_power_of_each_degree_is_preserved",
    "C105_square_matrices_are_orthogonal"
   ],
   "note": ""
  },
  {
   "property": "C106",
   "status": "proved",
   "theorems": [
    "C106_inverse_is_the_transpose",
    "C106_successive_rotations_multiply",
    "C106_geographic_axes_give_the_identity"
   ],
   "note": ""
  },
  {
   "property": "C107",
   "status": "partial",
   "theorems": [
    "C107_spectrum_rotates_at_the_sample_times_partial",
    "C107_any_number_of_samples_partial",
    "C107_other_systems_raise"
   ],
   "note": "Exact for an odd number of samples, all Fourier components and times counted from the start date. For any number of samples the deviation is given exactly: zero for odd numbers, for even ones (the default) the alternating mean over the samples, with alternating sign (see C81)."
  },
  {
   "property": "C108",
   "status": "proved",
   "theorems": [
    "C108_analysis_of_a_rotated_field"
   ],
   "note": ""
  },
  {
   "property": "C109",
   "status": "proved",
   "theorems": [
    "C109_mjd2000_relative_error",
    "C109_mjd2000_exact_times",
    "C109_mjd2000_order",
    "C109_one_nanosecond_may_be_lost"
   ],
   "note": ""
  },
  {
   "property": "C110",
   "status": "proved",
   "theorems": [
    "C110_timestamp_of_mjd2000",
    "C110_microseconds_survive_rounding",
    "C110_documentation_example_is_16_ns_early"
   ],
   "note": ""
  },
  {
   "property": "C111",
   "status": "proved",
   "theorems": [
    "C111_mjd_round_trip",
    "C111_dyear_round_trip",
    "C111_years_of_36525_hundredths",
    "C111_days_of_36525_hundredths",
    "C111_mjd_to_dyear_increasing",
    "C111_dyear_to_mjd_increasing",
    "C111_january_first_is_exact",
    "C111_calendar_year",
    "C111_new_year_may_come_early"
   ],
   "note": ""
  },
  {
   "property": "C112",
   "status": "proved",
   "theorems": [
    "C112_full_set_of_coefficients",
    "C112_square_root",
    "C112_degree_of_position",
    "C112_inferred_degree"
   ],
   "note": ""
  },
  {
   "property": "C113",
   "status": "proved",
   "theorems": [
    "C113_mean_is_unique",
    "C113_spectrum_is_the_mean_square_of_each_degree",
    "C113_mean_square_of_the_field_is_the_sum_of_the_spectrum"
   ],
   "note": ""
  },
  {
   "property": "C114",
   "status": "proved",
   "theorems": [
    "C114_toroidal_spectrum_is_the_mean_square",
    "C114_internal_external_and_toroidal_spectra_add",
    "C114_toroidal_fields_exist"
   ],
   "note": ""
  },
  {
   "property": "C115",
   "status": "proved",
   "theorems": [
    "C115_degree_correlation_is_the_correlation_of_the_fields"
   ],
   "note": ""
  },
  {
   "property": "C116",
   "status": "proved",
   "theorems": [
    "C116_every_epoch_is_loaded",
    "C116_bad_numbers_are_rejected",
    "C116_surplus_fields_are_rejected",
    "C116_gaps_become_missing_values"
   ],
   "note": "pandas.read_csv is modelled from its documented behaviour (inf, quotes, form feeds not modelled); the index dates are days since 2000, their rounding to nanoseconds is not modelled. Surplus fields in the first row shift all columns (shown as an example)."
  },
  {
   "property": "C117",
   "status": "proved",
   "theorems": [
    "C117_index_from_text_file",
    "C117_index_from_saved_file",
    "C117_same_index"
   ],
   "note": "Tables with NaN are not modelled; times of the epochs distinct."
  },
  {
   "property": "C118",
   "status": "partial",
   "theorems": [
    "C118_saves_every_epoch",
    "C118_failed_reading_changes_nothing",
    "C118_other_files_are_untouched",
    "C118_interrupted_saving",
    "C118_warning_keeps_old_file_refuted",
    "C118_saves_rows_with_gaps"
   ],
   "note": "The last sentence of the claim is false of the code: with a flag outside ASCII a warning is issued but the old file has been replaced and all flags of the new one are empty. Each statement is taken to reach the file immediately (HDF5 buffering not modelled)."
  },
  {
   "property": "C119",
   "status": "proved",
   "theorems": [
    "C119_deep_shells_give_the_physical_response"
   ],
   "note": "Exact arithmetic; the angle phi is not modelled; conductivity and radius of equal length."
  },
  {
   "property": "C120",
   "status": "proved",
   "theorems": [
    "C120_the_call_always_ends",
    "C120_more_rounds_change_nothing",
    "C120_every_tolerance"
   ],
   "note": "Exact arithmetic. A bound on the number of rounds stands for the unbounded loop: with enough rounds the result exists and is independent of the bound."
  },
  {
   "property": "C121",
   "status": "proved",
   "theorems": [
    "C121_response_converges_to_the_physical_one"
   ],
   "note": "Every degree n >= 1 and shells of any depth; the second solution of the code never vanishes where it is divided by (P_QConst12-14). Nothing is claimed about the size of the error at the fixed tolerance 1e-10."
  },
  {
   "property": "C122",
   "status": "partial",
   "theorems": [
    "C122_single_period_refuted",
    "C122_matrix_of_periods_raises",
    "C122_core_alone_raises",
    "C122_vector_of_periods_succeeds"
   ],
   "note": "The documented single float raises TypeError (enumerate over a 0-d array), theorem _refuted; the rest holds."
  },
  {
   "property": "C123",
   "status": "partial",
   "theorems": [
    "C123_transform_points_elementwise_partial",
    "C123_pole_tuple_that_broadcasts_refuted",
    "C123_coefficient_tuple_that_broadcasts_refuted",
    "C123_sm_dipole_series_refuted",
    "C123_unusable_dipoles_raise"
   ],
   "note": "Partial because the code refutes the full claim: a pole tuple with one colatitude and several longitudes, coefficient tuples of different shapes, and (for SM) dipoles that do not fit into the shape of the times raise ValueError although the arrays broadcast; proved for all other shapes."
  },
  {
   "property": "C124",
   "status": "partial",
   "theorems": [
    "C124_transform_vectors_elementwise_partial",
    "C124_one_pole_rejects_the_array",
    "C124_poles_within_range_are_noticed",
    "C124_unnoticed_pole_refuted",
    "C124_fails_where_points_fail",
    "C124_empty_arrays_raise",
    "C124_gsm_dipole_series_refuted"
   ],
   "note": "Partial because the code refutes the full claim: as C123, and for GSM too the dipoles must fit into the shape of the times (np.stack of the base vectors); a pole among colatitudes outside [0, 180] goes unnoticed in an array although alone it raises (refuted). All colatitudes are covered."
  },
  {
   "property": "C125",
   "status": "proved",
   "theorems": [
    "C125_zenith_angle_elementwise"
   ],
   "note": ""
  },
  {
   "property": "C126",
   "status": "proved",
   "theorems": [
    "C126_centred_angle",
    "C126_nonnegative_angles_exact",
    "C126_tiny_negative_angles_vanish"
   ],
   "note": "Rounding of every operation modelled; fmod exact (C standard)."
  },
  {
   "property": "C127",
   "status": "partial",
   "theorems": [
    "C127_local_time_range_partial",
    "C127_local_time_below_24_refuted",
    "C127_local_time_error"
   ],
   "note": "The documented half-open interval is refuted: 24.0 is returned when the rounded sum time + phi/360 is negative and at least -2^-54. The exact condition, the range [0, 24] and the error bound are proved."
  },
  {
   "property": "C128",
   "status": "proved",
   "theorems": [
    "C128_gg_to_geo_elementwise",
    "C128_geo_to_gg_elementwise",
    "C128_basevectors_gg_elementwise"
   ],
   "note": "Each element is the scalar function of C57/C58; NaN not modelled."
  },
  {
   "property": "C129",
   "status": "proved",
   "theorems": [
    "C129_meaning_of_near",
    "C129_internal_spectrum_error",
    "C129_external_spectrum_error",
    "C129_toroidal_spectrum_error",
    "C129_surface_spectrum_error",
    "C129_spectrum_exists"
   ],
   "note": "No overflow or underflow; integer factors exact up to 2^53; the power function is a parameter with an error contract."
  },
  {
   "property": "C130",
   "status": "proved",
   "theorems": [
    "C130_values_are_exact_for_a_nearby_model",
    "C130_value_error"
   ],
   "note": "No overflow, underflow (intermediate powers and coefficients zero or at least 2^-300) or fused multiply-add."
  },
  {
   "property": "C131",
   "status": "proved",
   "theorems": [
    "C131_meaning_of_terms_near",
    "C131_field_is_a_sum_of_rounded_contributions",
    "C131_distance_from_the_gradient_field"
   ],
   "note": "Proved for one point with the Legendre table as a parameter (its own rounding errors enter as the bounds eP, eD, eE); no overflow, products above the underflow threshold (hypothesis sizes_ok)."
  },
  {
   "property": "C132",
   "status": "partial",
   "theorems": [
    "C132_resistivity_of_constant_layers_partial",
    "C132_resistivity_of_quadratic_layers_is_imaginary_partial",
    "C132_resistivity_is_real_refuted"
   ],
   "note": "Refuted for the quadratic (default) kind: omega is the complex i*w there, so rho_a is i w mu0 |C|^2, purely imaginary and nonzero. Real and as stated for kind='constant'."
  },
  {
   "property": "C133",
   "status": "proved",
   "theorems": [
    "C133_phase_angle",
    "C133_phase_between_0_and_90"
   ],
   "note": "Exact arithmetic; 57.3 instead of 180/pi is the source of the tolerance."
  },
  {
   "property": "C134",
   "status": "partial",
   "theorems": [
    "C134_default_kind",
    "C134_quadratic_vector_gives_the_physical_response",
    "C134_single_period_refuted",
    "C134_single_period_of_a_uniform_earth",
    "C134_matrix_of_periods_raises",
    "C134_unknown_kind_raises",
    "C134_without_layers_raises"
   ],
   "note": "Refuted for a single number with two or more layers: tauk is a NumPy scalar then and its item assignment raises TypeError (theorem C134_single_period_refuted); with one layer it works."
  },
  {
   "property": "C135",
   "status": "proved",
   "theorems": [
    "C135_decimal_numbers_are_read",
    "C135_only_decimal_numbers_are_read",
    "C135_one_value",
    "C135_words",
    "C135_lines",
    "C135_fromstring"
   ],
   "note": "Decimal notation with exponent; the words inf and nan are not modelled."
  },
  {
   "property": "C136",
   "status": "proved",
   "theorems": [
    "C136_spectrum_inside_the_period",
    "C136_without_extrapolation_nan_exactly_outside",
    "C136_spectrum_of_the_returned_coefficients",
    "C136_spectrum_is_the_mean_square_of_the_field",
    "C136_errors"
   ],
   "note": "Exact arithmetic; coefficients complete up to a degree, D = N0(N0+2); extrapolated times through the theorem about the returned coefficients."
  },
  {
   "property": "C137",
   "status": "proved",
   "theorems": [
    "C137_no_parameter_line",
    "C137_every_file_has_a_reading",
    "C137_contents",
    "C137_errors",
    "C137_missing_times_are_not_reported"
   ],
   "note": "Numbers in decimal notation; inf/nan not modelled. Finding: missing times are not reported."
  },
  {
   "property": "C138",
   "status": "proved",
   "theorems": [
    "C138_cut_file_keeps_all_but_the_last_value",
    "C138_cut_after_a_line",
    "C138_cut_files_may_load",
    "C138_missing_rows_are_noticed",
    "C138_single_row_is_spread",
    "C138_missing_rows_from_degree_one"
   ],
   "note": "All cut positions. Findings: the format has no end mark, so a cut file may load, the last value may be shortened, and missing rows are not noticed from degree one on."
  },
  {
   "property": "C139",
   "status": "proved",
   "theorems": [
    "C139_wrong_number_of_coefficients",
    "C139_years_out_of_order",
    "C139_too_few_knots",
    "C139_one_knot_too_few",
    "C139_igrf_without_header",
    "C139_igrf_word_that_is_no_number",
    "C139_igrf_number_of_values",
    "C139_igrf_row_lengths_are_not_noticed"
   ],
   "note": "Findings: ragged IGRF rows are not noticed; one knot too few gives a model without field."
  },
  {
   "property": "C140",
   "status": "proved",
   "theorems": [
    "C140_time_dependent_part",
    "C140_matlab_evaluates_the_same",
    "C140_static_part",
    "C140_parameters",
    "C140_external_part",
    "C140_euler_angles",
    "C140_calibration",
    "C140_complete_models_are_saved",
    "C140_incomplete_external_part",
    "C140_incomplete_euler_angles"
   ],
   "note": "hdf5storage stores arrays unchanged (external); the merging of cells of one shape by np.array is part of the statement."
  },
  {
   "property": "C141",
   "status": "proved",
   "theorems": [
    "C141_empty_times",
    "C141_empty_times_of_the_model",
    "C141_empty_times_of_external_parts",
    "C141_unknown_reference",
    "C141_missing_time",
    "C141_first_exception_of_a_call",
    "C141_incompatible_shapes_of_a_call",
    "C141_truncated_headers"
   ],
   "note": "Complements C32, C45, C56, C88 and C139 (other exceptions)."
  },
  {
   "property": "C142",
   "status": "proved",
   "theorems": [
    "C142_each_element_is_a_scalar_call",
    "C142_shape_of_a_call",
    "C142_each_element_of_a_model"
   ],
   "note": "Time derivatives are excluded: they are not elementwise at the last break (C43)."
  },
  {
   "property": "C143",
   "status": "proved",
   "theorems": [
    "C143_nested_structures",
    "C143_formats_agree",
    "C143_following_names",
    "C143_names_and_order_kept",
    "C143_private_variables",
    "C143_other_variables_are_converted",
    "C143_result_is_tidy",
    "C143_twice",
    "C143_cells_are_not_converted"
   ],
   "note": "What hdf5storage returns is the input of the model."
  },
  {
   "property": "C144",
   "status": "proved",
   "theorems": [
    "C144_tick_labels",
    "C144_within_five_percent",
    "C144_zero",
    "C144_memory_of_series",
    "C144_memory_of_frame"
   ],
   "note": "Number formatting of Python and the byte counts of pandas are described by their documentation; numbers are rationals."
  },
  {
   "property": "C145",
   "status": "proved",
   "theorems": [
    "C145_proper_colours",
    "C145_every_value_has_a_part",
    "C145_colours_tell_parts_apart",
    "C145_colours_tell_signs",
    "C145_negative_half",
    "C145_positive_half",
    "C145_beyond_limits",
    "C145_way_stations"
   ],
   "note": "Matplotlib's colour table (256 entries, linear interpolation) and normalisation are described by their documentation, in exact arithmetic."
  },
  {
   "property": "C146",
   "status": "partial",
   "theorems": [
    "C146_gufm1_cut_partial",
    "C146_cals7k_cut_partial",
    "C146_covobs_cut_partial",
    "C146_gufm1_zero_refuted",
    "C146_cals7k_zero_refuted",
    "C146_covobs_zero_refuted",
    "C146_igrf_cut_partial",
    "C146_igrf_fewer_refuted"
   ],
   "note": "The claim that cut files are rejected is false of the code: the refuted theorems give the cuts that are accepted; the partial theorems bound what can come out of any cut."
  },
  {
   "property": "C147",
   "status": "proved",
   "theorems": [
    "C147_rotated_field",
    "C147_rotated_field_at_a_point"
   ],
   "note": "Exact arithmetic; leggauss by its contract. rotate_gauss for one set of axes; several sets are C103."
  },
  {
   "property": "C148",
   "status": "partial",
   "theorems": [
    "C148_what_the_file_holds",
    "C148_nothing_is_written",
    "C148_same_result_with_and_without_a_file",
    "C148_gsm_field_from_own_file",
    "C148_sm_field_from_own_file",
    "C148_another_dipole_is_refused",
    "C148_name_without_ending",
    "C148_unscaled_file_refuted"
   ],
   "note": "Refuted for files written with scaled=False, the default: np.load returns the flag as an array, which the identity test `scaled is False` does not recognise, so the coefficients are halfway to their mean. For a start_date other than 0 the theorem shows the times that are expected: days since it. The model is exact; np.savez and np.load by what they store."
  },
  {
   "property": "C149",
   "status": "proved",
   "theorems": [
    "C149_same_field",
    "C149_same_power_spectrum",
    "C149_only_the_ratio_of_the_radii_counts"
   ],
   "note": "Exact arithmetic; the spectrum on coefficient vectors."
  },
  {
   "property": "C150",
   "status": "proved",
   "theorems": [
    "C150_sources_are_separated",
    "C150_one_component_determines_one_source",
    "C150_radial_component_does_not_separate"
   ],
   "note": "Exact arithmetic. The hypothesis on the southward component is used including the poles."
  },
  {
   "property": "C151",
   "status": "partial",
   "theorems": [
    "C151_every_path",
    "C151_default_name",
    "C151_default_name_CALS7K",
    "C151_given_name",
    "C151_missing_file",
    "C151_unusable_file",
    "C151_parameter_SHC",
    "C151_chaos_names",
    "C151_chaos_names_refuted",
    "C151_chaos_from_shc",
    "C151_chaos_from_shc_parts",
    "C151_line_ends"
   ],
   "note": "Refuted for CHAOS objects with a name that is no text (models accept it). POSIX paths; a file that cannot be opened is a missing one; decoding errors are not modelled."
  },
  {
   "property": "C152",
   "status": "partial",
   "theorems": [
    "C152_model_name",
    "C152_chaos_name",
    "C152_line_break_refuted"
   ],
   "note": "Proved for names without line breaks; refuted for names with \\n or \\r: such a file is written without an error, and load_shcfile takes the rest of the name for data (KeyError)."
  },
  {
   "property": "C153",
   "status": "proved",
   "theorems": [
    "C153_pieces_join_smoothly",
    "C153_coefficients_are_smooth",
    "C153_field_is_smooth",
    "C153_smoothness_is_sharp"
   ],
   "note": "Exact arithmetic; knots from augment_breaks (simple inner knots)."
  },
  {
   "property": "C154",
   "status": "proved",
   "theorems": [
    "C154_best_fit",
    "C154_linear",
    "C154_grid_values",
    "C154_constants_are_ignored"
   ],
   "note": "leggauss by contract (exact for polynomials up to degree 2n-1)."
  },
  {
   "property": "C155",
   "status": "proved",
   "theorems": [
    "C155_cartesian_to_spherical",
    "C155_coordinates_exist_and_are_unique",
    "C155_relative_errors",
    "C155_spherical_to_cartesian",
    "C155_round_trip",
    "C155_same_point"
   ],
   "note": "cos, sin, atan2 by contract (accurate_within, accurate_atan2 in Spec_CoordF); examples show that correctly rounded ones meet it. Signed zeros are not distinguished; no overflow."
  },
  {
   "property": "C156",
   "status": "proved",
   "theorems": [
    "C156_the_angle",
    "C156_cosine",
    "C156_accurate",
    "C156_never_far_off",
    "C156_nan_below_the_sun"
   ],
   "note": "cos, sin, arccos by contract. The rounding errors of sun_position are not modelled (the position of the sun is an argument). The NaN is shown for a library with absolute error at most 2.3e-16 (one machine epsilon), not for a particular C library."
  },
  {
   "property": "C157",
   "status": "proved",
   "theorems": [
    "C157_axis_of_coefficients",
    "C157_relative_errors",
    "C157_axis_of_pole"
   ],
   "note": "np.linalg.norm as a relation: the rounded squares are added in any order; square root and division correctly rounded."
  }
 ]
}