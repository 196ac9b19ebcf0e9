# Output of Print Assumptions per theorem

D = ClassicalDedekindReals.sig_forall_dec, N = ClassicalDedekindReals.sig_not_dec, F = FunctionalExtensionality.functional_extensionality_dep, C = Classical_Prop.classic; "closed" = closed under the global context.

## Props_Analysis.v

* `C107_any_number_of_samples_partial`: D, N, C, F
* `C101_coefficients_are_recovered`: D, N, C, F
* `C102_too_few_points`: D, N, C, F
* `C103_same_function_in_both_systems`: D, N, C, F
* `C104_truncation_only_cuts`: D, N, C, F
* `C105_power_of_each_degree_is_preserved`: D, N, C, F
* `C106_successive_rotations_multiply`: D, N, C, F
* `C107_spectrum_rotates_at_the_sample_times_partial`: D, N, C, F
* `C108_analysis_of_a_rotated_field`: D, N, C, F
* `C101_small_kmax_is_ignored`: D, N, C, F
* `C101_degree_zero_raises`: D, N, C, F
* `C102_enough_points`: D, N, C, F
* `C103_degree_zero_raises`: D, N, C, F
* `C104_degrees_do_not_mix`: D, N, C, F
* `C105_square_matrices_are_orthogonal`: D, N, C, F
* `C106_inverse_is_the_transpose`: D, N, C, F
* `C106_geographic_axes_give_the_identity`: D, N, C, F
* `C107_other_systems_raise`: D, N, C, F

## Props_AzimuthF.v

* `C126_centred_angle`: D, N, C, F
* `C126_nonnegative_angles_exact`: D, N, C, F
* `C126_tiny_negative_angles_vanish`: D, N, C, F
* `C127_local_time_range_partial`: D, N, C, F
* `C127_local_time_below_24_refuted`: D, N, C, F
* `C127_local_time_error`: D, N, C, F

## Props_BestFit.v

* `C154_best_fit`: D, N, C, F
* `C154_linear`: D, N, C, F
* `C154_grid_values`: D, N, C, F
* `C154_constants_are_ignored`: D, N, C, F

## Props_Chaos.v

* `C62_call_is_the_sum_of_the_listed_sources`: D, N, F
* `C62_call_succeeds_when_its_sources_do`: D, N, F
* `C62_complete_model_can_be_evaluated`: D, N, F
* `C62_exception_of_a_listed_source_is_passed_on`: D, N, F
* `C62_order_and_repetition_do_not_matter`: D, N, F
* `C62_shorthands`: D, N, F
* `C62_single_source`: D, N, F
* `C63_unknown_source_refuted`: D, N, F
* `C63_methods_report_unknown_sources`: D, N, F
* `C64_gsm_coefficients`: D, N, F
* `C64_sm_external_coefficients`: D, N, F
* `C64_sm_internal_coefficients`: D, N, F
* `C64_gsm_all_is_external_plus_internal`: D, N, F
* `C64_sm_all_is_external_plus_internal`: D, N, F
* `C64_default_is_all`: D, N, F
* `C64_values_are_the_field_of_the_coefficients`: D, N, F
* `C64_smaller_degree_is_a_prefix`: D, N, F
* `C84_other_dipole_is_rejected`: D, N, F
* `C84_call_with_other_dipole_is_rejected`: D, N, F
* `C85_default_index_is_interpolated`: D, N, F
* `C85_interpolation_is_unique`: D, F
* `C85_times_outside_the_table_are_rejected`: D, N, F
* `C86_gsm_without_static_refuted`: D, N, F
* `C87_angles_of_a_satellite`: D, F
* `C87_evaluation_succeeds`: D, F
* `C87_unknown_satellite_is_reported`: D, F
* `C87_missing_meta_refuted`: closed
* `C88_static_field`: D, N, C, F
* `C88_missing_parts_are_reported`: D, N, F
* `C88_missing_external_parts_are_ValueErrors`: D, N, F
* `C88_missing_rotation_files_are_reported`: D, N, F
* `C63_unknown_source_of_coefficients_is_a_ValueError`: D, N, F
* `C84_other_dipole_is_an_AssertionError`: D, N, F

## Props_ChaosSHC.v

* `C95_missing_parts_are_reported`: closed
* `C95_defaults`: closed
* `C95_unknown_part_refuted`: closed
* `C95_static_part_alone_refuted`: D
* `C96_time_dependent_part`: D, N, C, F
* `C96_piecewise_constant_part`: D, F
* `C96_static_part`: D, F
* `C96_single_piece_refuted`: D, F

## Props_Config.v

* `C10_configuration_is_always_valid`: closed
* `C11_rejected_assignment_changes_nothing`: closed
* `C11_rejected_reset_changes_nothing`: closed
* `C11_unknown_keys_are_rejected`: closed
* `C11_unconvertible_values_are_rejected`: closed
* `C11_reading_an_unknown_key_raises`: closed
* `C12_assignment_stores_the_converted_value`: closed
* `C12_assignment_touches_one_key`: closed
* `C12_item_assignment_touches_one_key`: closed
* `C12_reassigning_what_was_read_changes_nothing`: closed
* `C12_typed_values_are_stored_exactly`: closed
* `C12_integers_become_floats`: closed
* `C12_lists_become_vectors`: closed
* `C12_vectors_of_wrong_length_are_rejected`: closed
* `C13_context_restores`: closed
* `C13_context_exit_succeeds`: closed
* `C14_context_restores_on_exception_refuted`: closed
* `C14_exception_leaves_the_state_of_the_body_partial`: closed
* `C15_load_is_atomic_refuted`: closed
* `C15_failed_load_assigns_a_prefix_partial`: closed
* `C15_unreadable_files_change_nothing`: closed
* `C15_load_assigns_all_entries_in_order`: closed
* `C16_load_after_save_keeps_all_but_pathlib_paths_partial`: closed
* `C16_save_load_round_trip_partial`: closed
* `C16_save_load_round_trip_refuted`: closed
* `C17_reset_restores_defaults_refuted`: closed
* `C17_fullreset_restores_defaults_refuted`: closed
* `C17_reset_restores_defaults_partial`: closed
* `C17_fullreset_restores_defaults_partial`: closed
* `C17_reset_stores_a_copy`: closed
* `C17_initial_configuration_is_the_default`: closed
* `C73_mapping_interface_validates_refuted`: closed

## Props_Coord.v

* `C49_azimuth_is_the_representative_in_range`: D, F
* `C50_local_time_is_shifted_universal_time`: D, F
* `C51_cartesian_undoes_spherical`: D, N, C, F
* `C52_zenith_angle_is_the_angle_to_the_sun`: D, N, C, F
* `C53_pole_position_gives_the_same_axis`: D, N, F
* `C54_gsm_and_sm_always_defined`: D, N, C, F
* `C55_transform_points_round_trip`: D, N, C, F
* `C56_vectors_rotate_with_the_frame`: D, N, C, F
* `C56_round_trip`: D, N, C, F
* `C57_point_on_the_normal`: D, N, C, F
* `C58_geodetic_coordinates_of_any_point`: D, N, C, F
* `C59_accepted_times`: D, N, C, F
* `C80_sun_direction`: D, N, C, F
* `C49_idempotent`: D, F
* `C51_radius_is_the_norm_and_angles_in_range`: D, N, C, F
* `C51_spherical_undoes_cartesian`: D, N, C, F
* `C51_meaning`: D, N, F
* `C52_antipodes_are_supplementary`: D, N, C, F
* `C53_axis_is_a_unit_vector_opposite_to_the_dipole`: D, N, F
* `C53_other_counts_raise`: D, N, F
* `C53_igrf_dipole`: D, N, F
* `C54_gsm`: D, N, C, F
* `C54_sm`: D, N, C, F
* `C54_mag`: D, N, F
* `C54_frames_are_unique`: D, F
* `C54_use`: D, N, F
* `C54_use_raises_exactly_at_poles`: D, N, F
* `C55_geo_to_base_resolves`: D, N, C, F
* `C55_round_trip`: D, N, C, F
* `C55_angles_preserved`: D, N, C, F
* `C55_transform_points`: D, N, C, F
* `C56_horizontal_length_preserved`: D, N, C, F
* `C56_fails_exactly_at_poles`: D, N, C, F
* `C56_unknown_reference_raises`: D, N, C, F
* `C56_missing_reference_raises`: D, N, C, F
* `C57_unique`: D, N, F
* `C57_components`: D, N, C, F
* `C58_round_trip_above_the_ellipsoid`: D, N, C, F
* `C58_round_trip_general`: D, N, C, F
* `C58_components_round_trip`: D, N, C, F
* `C59_ranges_partial`: D, N, C, F
* `C59_early_times_are_accepted_refuted`: D, N, C, F
* `C80_obliquity_is_acute_at_all_modern_times`: D, F

## Props_CoordArr.v

* `C123_transform_points_elementwise_partial`: D, N, C, F
* `C123_sm_dipole_series_refuted`: D, N, C, F
* `C124_transform_vectors_elementwise_partial`: D, N, C, F
* `C124_one_pole_rejects_the_array`: D, N, C, F
* `C124_poles_within_range_are_noticed`: D
* `C124_unnoticed_pole_refuted`: D, N, C, F
* `C124_gsm_dipole_series_refuted`: D, N, C, F
* `C125_zenith_angle_elementwise`: D, N, C, F
* `C124_empty_arrays_raise`: D, N, C, F
* `C123_coefficient_tuple_that_broadcasts_refuted`: D, N, C, F
* `C123_pole_tuple_that_broadcasts_refuted`: D, N, C, F
* `C123_unusable_dipoles_raise`: D, N, C, F
* `C124_fails_where_points_fail`: D, N, C, F

## Props_CoordF.v

* `C155_cartesian_to_spherical`: D, N, C, F
* `C155_coordinates_exist_and_are_unique`: D, N, C, F
* `C155_relative_errors`: D, N, C, F
* `C155_spherical_to_cartesian`: D, N, C, F
* `C155_round_trip`: D, N, C, F
* `C155_same_point`: D, N, C, F

## Props_DipoleF.v

* `C157_axis_of_coefficients`: D, N, C, F
* `C157_relative_errors`: D, N, C, F
* `C157_axis_of_pole`: D, N, C, F

## Props_Float.v

* `C109_mjd2000_relative_error`: D, N, C, F
* `C109_mjd2000_exact_times`: D, N, C, F
* `C109_mjd2000_order`: D, N, C, F
* `C109_one_nanosecond_may_be_lost`: D, N, C, F
* `C110_timestamp_of_mjd2000`: D, N, C, F
* `C110_microseconds_survive_rounding`: D, N, C, F
* `C110_documentation_example_is_16_ns_early`: D, N, C, F
* `C111_mjd_round_trip`: D, N, C, F
* `C111_dyear_round_trip`: D, N, C, F
* `C111_years_of_36525_hundredths`: D, N, C, F
* `C111_days_of_36525_hundredths`: D, N, C, F
* `C111_mjd_to_dyear_increasing`: D, N, C, F
* `C111_dyear_to_mjd_increasing`: D, N, C, F
* `C111_january_first_is_exact`: D, N, C, F
* `C111_calendar_year`: D, N, C, F
* `C111_new_year_may_come_early`: D, N, C, F
* `C112_full_set_of_coefficients`: D, N, C, F
* `C112_square_root`: D, N, C, F
* `C112_degree_of_position`: D, N, C, F
* `C112_inferred_degree`: D, N, C, F

## Props_GgArr.v

* `C128_gg_to_geo_elementwise`: D, N, C, F
* `C128_geo_to_gg_elementwise`: D, N, C, F
* `C128_basevectors_gg_elementwise`: D, N, F

## Props_Invalid.v

* `C141_empty_times`: D, F
* `C141_empty_times_of_the_model`: D, N, F
* `C141_empty_times_of_external_parts`: D, N, F
* `C141_unknown_reference`: D, N, C, F
* `C141_missing_time`: D, N, C, F
* `C141_first_exception_of_a_call`: D, N, F
* `C141_incompatible_shapes_of_a_call`: D, N, F
* `C141_truncated_headers`: D, F

## Props_Label.v

* `C144_tick_labels`: closed
* `C144_within_five_percent`: closed
* `C144_zero`: closed
* `C144_memory_of_series`: closed
* `C144_memory_of_frame`: closed
* `C145_proper_colours`: closed
* `C145_every_value_has_a_part`: closed
* `C145_colours_tell_parts_apart`: closed
* `C145_colours_tell_signs`: closed
* `C145_negative_half`: closed
* `C145_positive_half`: closed
* `C145_beyond_limits`: closed
* `C145_way_stations`: closed

## Props_Legendre.v

* `C20_entries_are_schmidt_functions`: D, N, C, F
* `C20_degree_zero_raises`: closed
* `C21_upper_entries_are_theta_derivatives`: D, N, C, F
* `C21_derivative_of_the_returned_table`: D, N, C, F
* `C22_squares_sum_to_one`: D, N, C, F
* `C22_entries_bounded`: D, N, C, F
* `C23_equator_reflection`: D, N, C, F
* `C23_north_pole`: D, N, C, F
* `C23_south_pole`: D, N, C, F

## Props_LoadCut.v

* `C146_gufm1_cut_partial`: D, N, C, F
* `C146_cals7k_cut_partial`: D, N, C, F
* `C146_covobs_cut_partial`: D, N, C, F
* `C146_gufm1_zero_refuted`: D, N, C, F
* `C146_cals7k_zero_refuted`: D, N, C, F
* `C146_covobs_zero_refuted`: D, N, C, F
* `C146_igrf_cut_partial`: D, F
* `C146_igrf_fewer_refuted`: D, N, C, F

## Props_LoadErr.v

* `C139_wrong_number_of_coefficients`: D, F
* `C139_years_out_of_order`: D, F
* `C139_igrf_without_header`: D, F
* `C139_igrf_word_that_is_no_number`: D, F
* `C139_igrf_number_of_values`: D, F
* `C139_igrf_row_lengths_are_not_noticed`: D, F
* `C139_too_few_knots`: D, F
* `C139_one_knot_too_few`: D, N, C, F

## Props_LoadMat.v

* `C143_nested_structures`: closed
* `C143_formats_agree`: closed
* `C143_following_names`: closed
* `C143_names_and_order_kept`: closed
* `C143_private_variables`: closed
* `C143_other_variables_are_converted`: closed
* `C143_result_is_tidy`: closed
* `C143_twice`: closed
* `C143_cells_are_not_converted`: closed

## Props_Loaders.v

* `C68_covobs_keeps_every_coefficient_partial`: D, N, C, F
* `C68_covobs_order_one_refuted`: D, N, C, F
* `C68_gufm1_keeps_every_coefficient`: D, N, C, F
* `C68_cals7k_keeps_every_coefficient`: D, N, C, F
* `C67_igrf_interpolates_linearly`: D, N, C, F
* `C67_igrf_january_first`: D, N, C, F

## Props_MatContent.v

* `C140_time_dependent_part`: D, F
* `C140_matlab_evaluates_the_same`: D, F
* `C140_static_part`: D, F
* `C140_parameters`: D, F
* `C140_external_part`: D, F
* `C140_euler_angles`: D, F
* `C140_calibration`: D, F
* `C140_complete_models_are_saved`: D, F
* `C140_incomplete_external_part`: D, F
* `C140_incomplete_euler_angles`: D, F

## Props_Matfile.v

* `C65_internal_parts_are_reproduced`: D, F
* `C65_reloaded_model_evaluates_the_same`: D, N, F
* `C65_reloaded_static_field_is_the_same`: D, N, F
* `C65_internal_models_can_be_saved_and_loaded`: D, F
* `C65_complete_models_can_be_saved_and_loaded`: D, F
* `C66_external_part_partial`: D, F
* `C66_sm_coefficients_evaluate_the_same`: D, N, F
* `C66_gsm_coefficients_refuted`: D, F
* `C66_one_interval_cannot_be_loaded_refuted`: D, F
* `C89_euler_angles_are_reproduced`: D, F
* `C89_euler_angles_evaluate_the_same`: D, F
* `C89_missing_params_refuted`: D
* `C90_names`: closed
* `C90_names_are_distinct`: closed
* `C90_clash_refuted`: closed
* `C90_caller_list_is_changed_refuted`: D
* `C91_other_parts_are_kept`: D, F
* `C91_stale_part_refuted`: D, F
* `C91_failed_save_refuted`: D, F
* `C92_calibration_partial`: D, F
* `C92_several_satellites_refuted`: D, F

## Props_Model.v

* `C75_collocation_entries_are_bsplines`: D, N, C, F
* `C75_derivative_entries`: D, N, C, F
* `C76_piecewise_polynomial_is_the_spline`: D, N, C, F
* `C76_model_from_spline_evaluates_the_spline`: D, N, C, F
* `C76_repeated_inner_knots_refuted`: D, F
* `C78_field_and_derivatives_inside_the_period`: D, N, C, F
* `C78_without_extrapolation_nan_exactly_outside`: D, N, F
* `C78_valid_input_succeeds`: D, N, F
* `C79_synth_from_pp_is_the_model_without_extrapolation`: D, N, F
* `C46_last_break_refuted`: D, F
* `C46_coefficients_and_other_breaks_partial`: D, F
* `C77_exported_samples`: D, F
* `C77_samples_determine_the_model`: D, F

## Props_ModelSpec.v

* `C136_spectrum_inside_the_period`: D, N, C, F
* `C136_without_extrapolation_nan_exactly_outside`: D, F
* `C136_spectrum_of_the_returned_coefficients`: D, F
* `C136_spectrum_is_the_mean_square_of_the_field`: D, N, C, F
* `C136_errors`: D, F

## Props_Names.v

* `C151_every_path`: closed
* `C151_default_name`: D, F
* `C151_default_name_CALS7K`: D, F
* `C151_given_name`: D, F
* `C151_missing_file`: D, F
* `C151_unusable_file`: D, F
* `C151_parameter_SHC`: closed
* `C151_chaos_names`: closed
* `C151_chaos_names_refuted`: closed
* `C151_chaos_from_shc`: D, F
* `C151_chaos_from_shc_parts`: D, F
* `C151_line_ends`: D, F
* `C152_model_name`: D, F
* `C152_chaos_name`: D, F
* `C152_line_break_refuted`: closed

## Props_PP.v

* `C39_inside_times_follow_their_piece`: D, F
* `C39_intervals_partition_the_period`: D, F
* `C39_documented_calls_succeed`: D, F
* `C40_derivative_per_year`: D, N, C, F
* `C41_off_is_nan_exactly_outside`: D, F
* `C41_constant_is_the_end_value`: D, N, C, F
* `C41_linear_is_the_tangent`: D, N, C, F
* `C42_spline_extrapolation_refuted`: D, F
* `C42_extrapolation_without_factorials`: D, N, C, F
* `C42_spline_extrapolation_partial`: D, N, C, F
* `C43_independence_of_other_times_refuted`: D, F
* `C43_independence_of_other_times_partial`: D, F
* `C44_last_rows_kept`: closed
* `C44_single_break_duplicated`: closed
* `C44_empty_model_raises`: D, F
* `C44_static_model_is_constant`: D, F
* `C45_unknown_method_reported_refuted`: D, F
* `C45_unknown_method_reported_partial`: D, F

## Props_Plot.v

* `C69_user_values_win_defaults_fill`: closed
* `C69_result_is_a_dictionary`: closed
* `C70_array_after_plotting`: D, F
* `C70_data_unchanged_refuted`: D, F
* `C70_spectrum_shown`: D, F
* `C71_units`: closed
* `C71_labels_differ`: closed
* `C71_documented_label_refuted`: closed
* `C97_timeseries_shows_every_component`: closed
* `C97_maps_show_every_component`: D, F
* `C97_wrong_layout_is_reported`: D, F
* `C97_too_few_titles_refuted`: D
* `C97_title_string_refuted`: D
* `C98_default_limit`: D, F
* `C98_limits_cover_each_panel_refuted`: D, F
* `C99_timeseries_of_a_model`: D, N, F
* `C99_timeseries_shows_the_field`: D, N, C, F
* `C99_maps_show_the_field`: D, N, C, F
* `C99_degree_in_the_title_refuted`: D, N, C, F
* `C99_power_spectrum_of_a_model`: D, F
* `C100_missing_parts_are_reported`: D, N, F
* `C100_static_maps`: D, N, F
* `C100_external_maps_sum`: D, N, F
* `C100_external_maps_one_part`: D, N, F
* `C100_unknown_reference_is_reported`: D, N, F

## Props_Pointwise.v

* `C142_each_element_is_a_scalar_call`: D, N, F
* `C142_shape_of_a_call`: D, N, F
* `C142_each_element_of_a_model`: D, N, F

## Props_Power.v

* `C113_mean_is_unique`: D, N, F
* `C113_spectrum_is_the_mean_square_of_each_degree`: D, N, C, F
* `C113_mean_square_of_the_field_is_the_sum_of_the_spectrum`: D, N, C, F
* `C114_toroidal_spectrum_is_the_mean_square`: D, N, C, F
* `C114_internal_external_and_toroidal_spectra_add`: D, N, C, F
* `C114_toroidal_fields_exist`: D, N, C, F
* `C115_degree_correlation_is_the_correlation_of_the_fields`: D, N, C, F

## Props_QCall.v

* `C132_resistivity_of_constant_layers_partial`: D, N, C, F
* `C132_resistivity_of_quadratic_layers_is_imaginary_partial`: D, N, C, F
* `C132_resistivity_is_real_refuted`: D, N, C, F
* `C133_phase_angle`: D, N, C, F
* `C133_phase_between_0_and_90`: D, N, C, F
* `C134_default_kind`: D, N, C, F
* `C134_quadratic_vector_gives_the_physical_response`: D, N, C, F
* `C134_single_period_refuted`: D, N, C, F
* `C134_single_period_of_a_uniform_earth`: D, N, C, F
* `C134_matrix_of_periods_raises`: D, N, C, F
* `C134_unknown_kind_raises`: D, N, C, F
* `C134_without_layers_raises`: D, N, C, F

## Props_QConst.v

* `C119_deep_shells_give_the_physical_response`: D, N, C, F
* `C120_the_call_always_ends`: D, N, F
* `C120_more_rounds_change_nothing`: D, N, F
* `C120_every_tolerance`: D, N, F
* `C121_response_converges_to_the_physical_one`: D, N, C, F
* `C122_single_period_refuted`: D, N, F
* `C122_matrix_of_periods_raises`: D, N, F
* `C122_core_alone_raises`: D, N, F
* `C122_vector_of_periods_succeeds`: D, N, F

## Props_RC.v

* `C116_every_epoch_is_loaded`: closed
* `C116_bad_numbers_are_rejected`: closed
* `C116_surplus_fields_are_rejected`: closed
* `C116_gaps_become_missing_values`: closed
* `C117_index_from_text_file`: D, F
* `C117_index_from_saved_file`: D, F
* `C117_same_index`: D, F
* `C118_saves_every_epoch`: closed
* `C118_failed_reading_changes_nothing`: closed
* `C118_other_files_are_untouched`: closed
* `C118_interrupted_saving`: D, C, F
* `C118_warning_keeps_old_file_refuted`: closed
* `C118_saves_rows_with_gaps`: closed

## Props_RotField.v

* `C147_rotated_field`: D, N, C, F
* `C147_rotated_field_at_a_point`: D, N, C, F

## Props_RotFile.v

* `C148_what_the_file_holds`: D, N, C, F
* `C148_nothing_is_written`: D, N, C, F
* `C148_same_result_with_and_without_a_file`: D, N, C, F
* `C148_gsm_field_from_own_file`: D, N, C, F
* `C148_sm_field_from_own_file`: D, N, C, F
* `C148_another_dipole_is_refused`: D, N, C, F
* `C148_name_without_ending`: D, N, C, F
* `C148_unscaled_file_refuted`: D, N, C, F

## Props_Rotate.v

* `C60_matrix_is_the_real_signal`: D, N, F
* `C60_scaled_and_unscaled_files_agree`: D, N, F
* `C60_documented_frequency_vector_refuted`: D, N, F
* `C61_response_is_elementwise`: D, N, C, F
* `C81_odd_series_is_reproduced`: D, N, F
* `C81_start_date_refuted`: D, N, F
* `C82_filter_keeps_the_largest_components`: D, N, F
* `C83_induced_part_is_smaller_than_inducing`: D, N, C, F
* `C83_response_solves_the_induction_equation`: D, N, C, F
* `C83_refining_the_file_changes_nothing`: D, N, C, F
* `C60_flag_read_from_file_refuted`: D, N, F
* `C60_true_flag_read_from_file`: D, N, F
* `C61_no_response_without_positive_frequency`: D, N, C, F
* `C61_shape`: D, N, C, F
* `C81_even_series_error_partial`: D, N, F
* `C81_even_series_refuted`: D, N, F
* `C81_start_date_partial`: D, N, F
* `C82_more_components_than_there_are_raises`: D, N, F
* `C83_insulating_earth_does_not_respond`: D, N, C, F
* `C83_penetration_depth_positive`: D, N, C, F
* `C83_row_of_coefficient`: closed

## Props_Rounding.v

* `C129_internal_spectrum_error`: D, N, C, F
* `C130_values_are_exact_for_a_nearby_model`: D, N, C, F
* `C131_distance_from_the_gradient_field`: D, N, C, F
* `C129_surface_spectrum_error`: D, N, C, F
* `C129_external_spectrum_error`: D, N, C, F
* `C129_spectrum_exists`: D, N, C, F
* `C131_field_is_a_sum_of_rounded_contributions`: D, N, C, F
* `C131_meaning_of_terms_near`: D, F
* `C130_value_error`: D, N, C, F
* `C129_meaning_of_near`: D, F
* `C129_toroidal_spectrum_error`: D, N, C, F

## Props_SHC.v

* `C47_round_trip`: closed
* `C47_times_within_two_microdays`: closed
* `C47_row_labels`: closed
* `C48_failing_save_keeps_file_refuted`: closed
* `C48_scalar_time_refuted`: closed
* `C48_early_errors_keep_files_partial`: closed
* `C48_other_files_untouched_partial`: closed

## Props_SHCImport.v

* `C93_samples_of_splines`: D, N, C, F
* `C93_sites_determine_the_spline`: D, N, C, F
* `C93_order_two_is_linear_interpolation`: D, N, C, F
* `C94_smooth_models`: D, N, C, F
* `C94_smooth_models_with_rounded_values`: D, N, C, F
* `C93_least_squares_fit`: D, N, C, F
* `C94_order_two_with_rounding`: D, N, C, F
* `C94_kinks_are_lost_refuted`: D, N, C, F

## Props_SHCRead.v

* `C137_no_parameter_line`: closed
* `C137_every_file_has_a_reading`: closed
* `C137_contents`: closed
* `C137_errors`: closed
* `C137_missing_times_are_not_reported`: closed
* `C138_cut_file_keeps_all_but_the_last_value`: closed
* `C138_cut_after_a_line`: closed
* `C138_cut_files_may_load`: closed
* `C138_missing_rows_are_noticed`: D, F
* `C138_single_row_is_spread`: D, F
* `C138_missing_rows_from_degree_one`: D, F

## Props_Spectrum.v

* `C33_design_matrix_predicts_the_field`: D, N, F
* `C33_valid_input_succeeds`: D, N, F
* `C33_static_degree_below_time_dependent_degree_raises`: D, N, F
* `C34_end_breaks_repeated`: closed
* `C34_sorted_breaks_give_sorted_knots`: D, F
* `C34_no_breaks_raises`: closed
* `C35_internal_spectrum`: D, F
* `C35_external_spectrum`: D, F
* `C35_toroidal_spectrum`: D, F
* `C35_valid_input_succeeds`: D, F
* `C35_unknown_source_raises`: D, F
* `C35_other_axes_are_independent`: D, F
* `C35_negative_axis_counts_from_the_end`: D, F
* `C35_default_radius_is_the_surface`: D, F
* `C36_nonnegative_and_zero_exactly_without_coefficients`: D, F
* `C36_quadratic`: D, F
* `C36_depends_only_on_the_coefficients_of_the_degree`: D, F
* `C36_internal_radius_law`: D, F
* `C37_value_range_and_nan`: D, N, F
* `C37_same_size_succeeds`: D, N, F
* `C37_symmetric`: D, N, F
* `C37_self_correlation_is_one`: D, N, F
* `C37_positive_scaling`: D, N, F
* `C37_other_shapes_raise`: D, N, F
* `C37_other_sizes_raise`: D, N, F
* `C38_sensitivity_of_identical_models_refuted`: D, N, F
* `C38_sensitivity_formula`: D, N, F
* `C38_sensitivity_of_identical_models_partial`: D, N, F
* `C38_same_size_succeeds`: D, N, F
* `C38_scaling_both_models`: D, N, F
* `C74_partition_of_unity`: D, F
* `C74_outside_is_nan`: D, F
* `C74_valid_input_succeeds`: D, F
* `C74_any_knots`: D, F
* `C33_exceptions_for_the_static_degree`: D, N, F
* `C35_unknown_source_is_a_ValueError`: D, F

## Props_SplineC.v

* `C153_pieces_join_smoothly`: D, N, C, F
* `C153_coefficients_are_smooth`: D, N, C, F
* `C153_field_is_smooth`: D, N, C, F
* `C153_smoothness_is_sharp`: D, F

## Props_Synth.v

* `C18_synthesis_reads_documented_positions`: D, N, C, F
* `C18_every_position_is_used`: closed
* `C18_positions_are_distinct`: closed
* `C19_design_columns_are_the_coefficients_needed`: D, N, F
* `C19_degree_inferred_from_the_number_of_coefficients`: D, N, F
* `C19_degree_inferred_for_given_order`: D, N, F
* `C19_defaults`: D, N, F
* `C24_synthesis_is_design_matrix_times_coefficients`: D, N, F
* `C25_field_is_minus_gradient_of_potential`: D, N, C, F
* `C25_valid_input_succeeds`: D, N, F
* `C26_linear`: D, N, F
* `C27_pole_values_are_meridional_limits`: D, N, C, F
* `C28_degree_range_is_zero_padding`: D, N, C, F
* `C29_colatitudes_outside_rejected_refuted`: D, N, F
* `C29_colatitudes_outside_rejected_partial`: D, N, F
* `C29_scalar_colatitude_outside_rejected`: D, N, F
* `C30_each_element_is_the_scalar_evaluation`: D, N, F
* `C30_grid_is_the_outer_product`: D, N, F
* `C31_longitude_periodicity`: D, N, F
* `C31_zonal_fields_do_not_depend_on_longitude`: D, N, C, F
* `C32_unknown_source_raises`: D, N, F
* `C32_empty_degree_range_raises`: D, N, F
* `C32_too_few_coefficients_raises`: D, N, F
* `C32_incompatible_shapes_raise`: D, N, F
* `C32_no_points_raises`: D, N, F
* `C72_field_is_divergence_free`: D, N, C, F
* `C32_exceptions_for_degree_ranges`: D, N, F
* `C32_unknown_source_is_a_ValueError_in_design_gauss`: D, N, F
* `C32_unknown_source_is_a_ValueError`: D, N, F
* `C32_exception_for_shapes`: D, N, F

## Props_Text.v

* `C135_decimal_numbers_are_read`: closed
* `C135_only_decimal_numbers_are_read`: closed
* `C135_one_value`: closed
* `C135_words`: closed
* `C135_lines`: closed
* `C135_fromstring`: closed

## Props_Time.v

* `C01_leap_year_is_calendar`: closed
* `C01_leap_year_is_gregorian_rule`: closed
* `C02_mjd2000_counts_days`: closed
* `C02_every_date_has_a_distance`: closed
* `C03_mjd2000_rejects_invalid_dates`: closed
* `C03_mjd2000_accepts_valid_dates`: closed
* `C03_one_bad_date_fails_the_array`: closed
* `C04_mjd2000_strictly_increasing`: closed
* `C05_dyear_round_trip`: closed
* `C05_mjd_round_trip`: closed
* `C05_round_trip_every_year_refuted`: closed
* `C06_affine_round_trip`: closed
* `C06_affine_formula`: closed
* `C07_floor_is_calendar_year`: closed
* `C07_mjd_to_dyear_strictly_increasing`: closed
* `C07_dyear_to_mjd_strictly_increasing`: closed
* `C07_january_first`: closed
* `C08_timestamp_inverts_mjd2000`: closed
* `C08_mjd2000_of_timestamp_within_1ns`: closed
* `C09_every_four_digit_year_refuted`: closed
* `C09_years_1708_to_2291_partial`: closed
* `C01_leap_year_rejects_non_integers`: closed

## Props_Unique.v

* `C149_same_field`: D, N, C, F
* `C149_same_power_spectrum`: D, F
* `C149_only_the_ratio_of_the_radii_counts`: D, N, C, F
* `C150_sources_are_separated`: D, N, C, F
* `C150_one_component_determines_one_source`: D, N, C, F
* `C150_radial_component_does_not_separate`: D, N, C, F

## Props_ZenithF.v

* `C156_the_angle`: D, N, C, F
* `C156_cosine`: D, N, C, F
* `C156_accurate`: D, N, C, F
* `C156_never_far_off`: D, N, C, F
* `C156_nan_below_the_sun`: D, N, C, F

