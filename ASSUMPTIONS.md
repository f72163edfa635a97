# Print Assumptions, theorem by theorem

Written by `tools/assumptions.py` from the compiled files; theorems with the same list are grouped.

## Closed under the global context (no axioms)

- `PropertiesAlias.v`: `C140_constructor_arguments_never_modified`, `C140_other_arrays_never_modified`, `C141_results_keep_their_values_partial`, `C143_edits_of_copies_never_reach_the_object_partial`, `C142_even_grid_input_fields_are_copied_partial`, `C141_results_keep_their_values_refuted`, `C141_named_tuple_keeps_its_values_refuted`, `C142_inputs_are_copied_refuted`, `C142_result_is_the_input_array_refuted`, `C143_editing_results_is_harmless_refuted`
- `PropertiesAlias2.v`: `C141_a_call_overwrites_only_its_own_results_partial`, `C142_interpolated_fields_are_new_arrays_partial`, `C176_repeating_a_call_changes_nothing`, `C141_a_call_overwrites_its_own_results_refuted`
- `PropertiesFlux.v`: `C46_kernels_return_same_lwa`, `C47_memory_bounds_refuted`, `C47_memory_bounds_partial`
- `PropertiesGrid.v`: `C31_even_grids_accepted_refuted`
- `PropertiesLegacy.v`: `C66_index_bijection`
- `PropertiesMisc.v`: `C65_complete_level_unchanged`, `C65_numbers_kept_partial`, `C65_infinities_replaced_refuted`
- `PropertiesMissing.v`: `C161_nan_fills_its_longitude`, `C161_nan_forcing_fills_its_longitude`, `C161_infinity_fills_its_longitude`, `C161_other_longitudes_unaffected`, `C161_forcing_shows_missing_vorticity_refuted`
- `PropertiesMissing2.v`: `C173_missing_pv_shows_in_the_activity_refuted`, `C173_missing_reference_pv_shows_in_the_activity_refuted`, `C173_missing_winds_show_in_the_fluxes_partial`, `C174_every_level_can_be_binned_refuted`, `C174_index_of_a_level_of_uniform_pv_is_out_of_bounds`
- `PropertiesMissing3.v`: `C183_missing_equatorial_wind_shows`
- `PropertiesPlotFiles.v`: `C171_time_slices`, `C171_twice`
- `PropertiesReach.v`: `C180_reach_of_one_grid_point`, `C180_missing_value_fills_its_reach`
- `PropertiesState.v`: `C37_fluxes_return_iff_every_solve_converged`, `C37_fluxes_need_interpolation_then_reference_states`, `C38_no_recovery_after_nonconvergence`, `C39_fluxes_use_matching_reference_state_partial`, `C39_fluxes_in_general`, `C40_layerwise_readable_iff_computed`, `C40_layerwise_read_before_computation_raises`, `C41_lwa_only_requires_exactly_interpolation`, `C41_layerwise_requires_exactly_interpolation`, `C41_lwa_without_reference_state_uses_zeros`, `C77_layerwise_on_even_grid_refuted`, `C77_layerwise_on_odd_grid_partial`, `C78_northern_only_even_grid_pipeline_refuted`, `C79_uncomputed_reference_state_reads_as_zero_refuted`, `C80_lwa_only_available_after_nonconvergence`, `C38_recovery_after_failed_solve_refuted`, `C39_stale_reference_state_refuted`, `C41_computes_without_reference_state_refuted`, `C44_reported_iteration_count`, `C44_convergence_before_last_iteration_partial`, `C44_convergence_on_last_iteration_refuted`
- `PropertiesStorage.v`: `C25_northern_write_changes_exactly_the_last_rows`, `C25_southern_write_changes_exactly_the_first_rows_flipped`, `C25_northern_read_returns_what_was_written`, `C25_southern_read_returns_the_flipped_write`, `C26_both_hemispheres_determine_every_row`, `C27_northern_only_mode_refuses_southern_access`, `C28_declared_views_exist_partial`, `C28_declared_views_exist_refuted`, `C29_index_orders_are_inverse`, `C29_declared_shapes_convert`, `C73_views_never_change_array_sizes`
- `PropertiesWarnings.v`: `C194_no_report_for_sound_data_refuted`, `C194_elements_taken_from_memory`, `C194_other_elements_do_not_depend_on_memory`
- `PropertiesXarray.v`: `C61_names_resolved`, `C61_names_unique`

## `FunctionalExtensionality.functional_extensionality_dep`

- `PropertiesMissing3.v`: `C183_missing_stability_never_converges`, `C183_missing_pv_never_converges`, `C183_missing_temperature_shows`, `C183_missing_wind_shows_refuted`

## `ClassicalDedekindReals.sig_forall_dec`, `FunctionalExtensionality.functional_extensionality_dep`

- `PropertiesDrivers.v`: `C167_predigest_keeps_values_in_place`, `C167_sample_script_keeps_values_in_place_refuted`, `C167_budget_scripts_keep_values_in_place_refuted`
- `PropertiesHeights.v`: `C193_heights_are_the_levels_in_exact_arithmetic`, `C137_suggestion_accepted_in_floating_point`

## `ClassicalDedekindReals.sig_forall_dec`, `ClassicalDedekindReals.sig_not_dec`, `FunctionalExtensionality.functional_extensionality_dep`

- `PropertiesLegacy.v`: `C123_adiabatic_three_levels_refuted`

## `ClassicalDedekindReals.sig_forall_dec`, `ClassicalDedekindReals.sig_not_dec`, `Classical_Prop.classic`, `FunctionalExtensionality.functional_extensionality_dep`

- `PropertiesAccuracy.v`: `C165_relative_accuracy`, `C165_relative_error_bound`, `C165_forcing_accuracy`
- `PropertiesAccuracy2.v`: `C175_wave_activity_accuracy`, `C175_barotropic_activity_accuracy`
- `PropertiesBarotropic.v`: `C10_default_area_at_most_sphere`, `C10_default_object_profile`, `C15_reads_order_independent`, `C15_read_values`, `C15_assignment_seen_by_equivalent_latitudes`, `C16_lwa_follows_assignment_if_unread_partial`, `C16_lwa_frozen_after_first_read`, `C16_lwa_consistent_after_assignment_refuted`
- `PropertiesBounds.v`: `C187_wave_activity_is_at_most_the_spread_of_pv_times_the_radius`, `C188_no_wave_activity_exactly_when_no_air_is_displaced`, `C188_barotropic_wave_activity_vanishes_exactly_when_that_of_all_levels_does`
- `PropertiesBudget.v`: `C185_stretching_term_adds_up_to_the_heat_flux_less_the_top`, `C185_vertical_mean_of_the_stretching_term`, `C185_mean_of_stretching_term_is_the_heat_flux_refuted`, `C186_momentum_is_only_redistributed_between_the_ends`
- `PropertiesConverge.v`: `C184_enough_iterations_suffice`, `C184_otherwise_no_number_of_iterations_suffices`
- `PropertiesDataset.v`: `C190_each_slice_is_analysed_as_its_own_field`, `C190_results_depend_on_their_slice_only`, `C190_the_dataset_is_analysed_when_every_slice_is`, `C191_wave_activity_of_a_dataset_is_not_negative`
- `PropertiesDirInv.v`: `C54_direct_inversion_solves_the_problem`, `C54_reported_wind_solves_the_problem`, `C103_no_singular_matrix`, `C56_boundary_row_of_the_reported_wind`, `C56_boundary_condition_reported_refuted`, `C104_boundary_wind_at_the_equator_partial`, `C104_boundary_wind_refuted`, `C105_top_shear_partial`, `C105_top_shear_refuted`, `C106_reported_states_balanced`, `C107_reported_mean_theta`, `C107_southern_mean_theta_refuted`, `C108_same_reference_pv`, `C43_symmetric_state_gives_symmetric_results`
- `PropertiesDrivers.v`: `C168_one_slice_for_every_time_step`, `C168_slices_follow_the_calendar`, `C168_completes`, `C168_all_times_processed_refuted`, `C168_either_orientation_refuted`, `C169_sample_script_completes_refuted`, `C169_budget_script_writes_the_properties`, `C169_budget_scripts_on_every_grid_refuted`, `C169_forcing_script_completes`
- `PropertiesEqvlat.v`: `C08_profile_is_area_map_of_contours`, `C08_cumulative_area_monotone_and_bounded`, `C09_profile_monotone_and_in_range`, `C11_rearrangement_invariant`, `C12_profile_affine_equivariant`, `C13_vgrad_and_fawa_profiles_agree`, `C14_bracket_in_data_hull`, `C14_bin_average_in_range`, `C68_profile_matches_area`, `C69_fawa_is_circulation_difference_partial`, `C69_fawa_zero_for_constant_field_refuted`
- `PropertiesEven.v`: `C151_even_grids_are_interpolated_odd_grids`
- `PropertiesFawa.v`: `C177_zonal_total_of_lwa_is_the_circulation_excess`, `C177_lwa_is_least_for_the_area_preserving_reference`, `C177_zonal_total_of_a_session_is_the_circulation_excess`, `C177_session_wave_activity_is_least_for_the_area_preserving_reference`
- `PropertiesFlux.v`: `C45_lwa_kernel_is_displaced_contour_integral`, `C45_lwa_kernel_zero_outside`, `C45_lwa_kernel_nonnegative`, `C35_barotropic_lwa_paths_agree`, `C36_u_baro_paths_agree_refuted`, `C36_u_baro_paths_partial`, `C48_momentum_flux_south_refuted`, `C48_momentum_flux_partial`, `C49_f1_is_reference_wind_times_lwa`, `C49_undisturbed_flow_has_no_fluxes`, `C81_barotropic_lwa_paths_agree_on_pseudoheight_input_refuted`, `C81_barotropic_lwa_paths_partial`, `C82_forcing_is_displaced_integral`, `C82_forcing_linear`, `C82_no_forcing`, `C83_f2_formula`, `C83_f3_formula`, `C83_heat_flux_formula`, `C84_zero_outside_analysed_rows_refuted`, `C84_zero_outside_analysed_rows_partial`, `C84_pole_row_content_partial`
- `PropertiesFormula.v`: `C146_qgpv_follows_from_the_fields`, `C147_wave_activity_follows_from_qgpv`, `C148_zonal_flux_follows_from_the_fields`, `C149_meridional_flux_follows_from_the_fields`, `C150_heat_flux_wind_and_forcing_follow_from_the_fields`
- `PropertiesGlobe.v`: `C144_identical_activity_partial`, `C144_identical_activity_refuted`, `C145_globe_accepted_exactly_with_an_exact_equator`
- `PropertiesGrid.v`: `C30_equator_index_marks_the_only_zero`, `C30_descending_first_step_rejected`, `C30_acceptance_condition`, `C31_even_grids_accepted_partial`, `C32_symmetric_grids_are_centred_partial`, `C32_accepted_grids_are_centred_refuted`, `C33_analysis_heights_below_data_top`, `C33_interpolated_values_between_bracketing_levels`, `C33_interpolation_exact_on_nodes_and_lines`, `C34_vertical_average_preserves_constants_refuted`, `C34_vertical_average_of_constant_value_partial`, `C34_vertical_average_bounds_partial`, `C34_vertical_average_linear`, `C74_accepted_wind_shapes_partial`, `C74_temperature_shape_checked_refuted`, `C75_even_grid_northern_only_returns_fields_refuted`, `C76_returned_values_stay_in_range`
- `PropertiesHeights.v`: `C193_heights_are_the_levels_refuted`, `C193_at_most_one_height_too_many`, `C193_heights_are_the_levels_partial`, `C193_whole_spacings`, `C137_at_most_one_level_more_in_binary64`
- `PropertiesHybrid.v`: `C166_interpolated_where_possible`, `C166_linear_profiles_are_reproduced`, `C166_times_and_levels_are_independent`, `C166_topography`, `C166_topography_marks_the_ground_refuted`, `C166_importable_refuted`
- `PropertiesInfluence.v`: `C178_forcing_enters_only_its_integral`, `C178_solver_settings`, `C178_number_of_contours`, `C178_vertical_grid_of_the_data`, `C178_more_iterations_change_nothing`
- `PropertiesLegacy.v`: `C66_no_slip_system`, `C66_adiabatic_system`, `C123_unique_reference_states`, `C124_temperature_correction`, `C125_misplaced_balance_partial`, `C125_last_rows_partial`, `C125_thermal_wind_refuted`
- `PropertiesLevels.v`: `C181_winds_act_level_by_level`, `C181_only_the_two_data_levels_around_a_level_matter`
- `PropertiesLipschitz.v`: `C189_wave_activity_changes_at_most_as_much_as_the_pv`, `C187_wave_activity_is_bounded_on_even_grids_too`
- `PropertiesLwa.v`: `C01_lwa_is_displaced_contour_integral`, `C02_lwa_nonnegative`, `C02_lwa_nonnegative_exact`, `C03_lwa_zero_iff_undisturbed`, `C03_symmetric_flow_has_zero_lwa`, `C04_partition_sums_to_total`, `C05_lwa_column_local`, `C05_lwa_zonal_relabelling`, `C06_lwa_affine_equivariant`, `C07_bigsigma_is_forcing_integral`, `C07_bigsigma_none`, `C07_bigsigma_linear`, `C67_lwa_lipschitz`
- `PropertiesMemory.v`: `C192_routines_stay_inside_their_arrays`, `C192_routines_stay_inside_for_uneven_fields`, `C192_routines_stay_inside_in_single_precision`, `C192_boundary_next_to_the_pole_leaves_the_arrays`, `C192_bins_outside_are_written`
- `PropertiesMirror.v`: `C109_mirrored_state_gives_mirrored_results`, `C110_nhn22_mirrored_partial`, `C110_nhn22_mirrored_refuted`
- `PropertiesMisc.v`: `C64_sample_covariance_per_cell`, `C64_symmetric`, `C122_covariance_laws`
- `PropertiesMissing.v`: `C162_mask_is_ignored_partial`, `C162_hidden_values_have_no_influence_refuted`
- `PropertiesObject.v`: `C131_session_succeeds_exactly_when`, `C128_rolled_input_gives_rolled_output`, `C129_nh18_mirrored_input_gives_mirrored_output`, `C129_nhn22_mirrored_input_gives_mirrored_activity_partial`, `C130_northern_only_gives_the_northern_rows`, `C130_even_grids_refuted`, `C133_reported_wave_activity_is_not_negative`, `C132_derived_grid_numbers`, `C132_dphi_is_the_spacing_from_pole_to_pole`, `C132_dphi_is_the_spacing_refuted`, `C134_levels_of_the_data_are_kept`, `C134_linear_profiles_are_kept`, `C134_even_grids_keep_linear_winds_partial`, `C134_even_grids_keep_winds_refuted`, `C135_named_tuple_is_the_properties`, `C135_named_tuple_rows_refuted`, `C136_heating_to_forcing`, `C136_heating_on_every_grid_refuted`, `C137_suggested_kmax_is_the_largest_accepted`, `C138_first_steps_are_checked_partial`, `C138_disordered_axes_are_rejected_refuted`, `C139_latitudes_of_the_results`
- `PropertiesOffset.v`: `C196_constant_added_to_potential_temperature`, `C196_constant_added_leaves_fluxes`, `C196_constant_added_to_reference_temperature`
- `PropertiesPipeline.v`: `C42_symmetric_reference_states`, `C42_symmetric_lwa_and_fluxes`, `C42_symmetric_heating_gives_odd_forcing`, `C43_symmetric_after_reference_states`, `C85_northern_results_same_nh18`, `C85_northern_results_same_nhn22`, `C90_hemispheric_means_in_range`, `C90_off_centre_grid_refuted`, `C91_lwa_only_agrees`, `C93_layerwise_lwa_agrees`, `C92_components_add_up_north`, `C92_components_add_up_refuted`, `C94_barotropic_lwa_nonnegative`
- `PropertiesPlotFiles.v`: `C170_comparison_plot`, `C170_all_differences_shown_refuted`, `C170_maps_with_automatic_colours_refuted`
- `PropertiesQgpv.v`: `C50_vorticity_uses_longitude_spacing_refuted`, `C50_vorticity_partial`, `C86_qgpv_is_vorticity_plus_stretching`, `C86_pole_rows_are_zonal_means`, `C86_qgpv_zero_at_lowest_and_top_level`, `C87_qgpv_of_mirrored_state`, `C88_solid_body_rotation`, `C89_qgpv_zonal_relabelling`
- `PropertiesRefStates.v`: `C51_bins_stay_in_bounds`, `C51_cumulative_area_partial`, `C51_contour_area_refuted`, `C51_reported_contour_encloses_the_cap`, `C52_reference_pv_in_range_and_monotone_partial`, `C52_unbracketed_row_is_zero`, `C52_range_refuted`, `C53_pass_without_change_iff_solution`, `C53_converged_residual_partial`, `C53_reported_convergence_refuted`, `C55_hemispheric_mean_theta_kept`, `C95_thermal_wind_balance`, `C96_edges_of_the_reference_wind`, `C96_equatorial_value_used_refuted`, `C97_unique_reference_wind`, `C98_reference_states_ignore_longitudes`, `C99_deterministic_when_bracketed_partial`, `C99_uninitialised_circulation_refuted`, `C100_top_temperature_gradient`, `C101_iteration_count`, `C85_northern_results_same_nh18_solver`, `C95_reported_states_balanced`, `C55_reported_mean_theta`, `C102_equatorial_boundary_condition`, `C52_reported_north_partial`, `C52_reported_south_partial`
- `PropertiesRotate.v`: `C126_nh18_turned_state_gives_turned_results`, `C126_nhn22_turned_state_gives_turned_results`, `C127_zonally_uniform_state`
- `PropertiesRound.v`: `C163_rounded_activity_nonnegative_partial`, `C163_single_precision_activity_nonnegative_refuted`, `C163_southern_activity_nonnegative_refuted`, `C164_bins_in_bounds`
- `PropertiesSession.v`: `C152_reference_states_are_in_thermal_wind_balance`, `C153_reference_pv_is_the_area_rearrangement_of_the_pv`, `C153_reference_pv_encloses_the_cap_refuted`, `C154_mean_reference_temperature`, `C155_nh18_reference_wind_at_the_edges`, `C155_nhn22_reference_wind_at_the_edges`, `C156_nh18_returned_wind_solves_the_problem_partial`, `C156_nh18_wind_solves_the_problem_or_is_zero`, `C157_nhn22_wind_solves_the_problem`, `C158_which_sessions_are_refused`, `C159_lwa_only_gives_the_wave_activity_of_the_full_session`, `C159_lwa_only_does_not_depend_on_the_wind_solver`, `C159_barotropic_wind_of_lwa_only_partial`, `C159_barotropic_wind_is_that_of_the_full_session_refuted`, `C160_forcing_of_a_heating_rate`
- `PropertiesSymmetry.v`: `C179_repeating_pattern`, `C179_uniform_state`, `C179_state_symmetric_about_the_equator`
- `PropertiesUnits.v`: `C182_unit_of_time`, `C182_units_of_time_and_length`, `C195_units_of_time_and_temperature`, `C195_units_of_time_length_and_temperature`, `C195_zonal_flux_convergence`, `C182_zonal_flux_convergence`, `C182_units_nhn22`, `C195_units_nhn22`
- `PropertiesUtilities.v`: `C17_zonal_convergence_sums_to_zero`, `C17_zonal_convergence_linear`, `C17_zonal_convergence_kills_uniform_rows`, `C17_zonal_convergence_commutes_with_rotation`, `C18_zonal_convergence_is_centred_periodic_difference`, `C19_pole_rows_zero_refuted`, `C19_pole_rows_value_partial`, `C20_meridional_divergence_interior`, `C20_meridional_divergence_edges_refuted`, `C21_curl_zero_on_first_and_last_row`, `C21_curl_interior_value`, `C21_curl_row_sum_only_sees_neighbouring_u`, `C21_curl_stokes`, `C21_curl_linear`, `C22_hemispheric_means_within_data_range`, `C22_hemispheric_mean_is_area_weighted`, `C22_static_stability_exact_on_linear_profiles`, `C22_accepts_every_column_of_two_levels`, `C23_result_determined_on_covered_rows_partial`, `C23_qgpv_value_for_even_nlat`, `C23_result_determined_refuted`, `C24_z_derivative_linear_in_g`, `C24_z_derivative_exact`, `C70_curl_of_gradient_is_zero`, `C71_curl_of_solid_body_rotation`, `C72_meridional_divergence_flux_form`
- `PropertiesWrapper.v`: `C62_both_hemispheres`, `C62_equator_row`, `C62_reference_mirrors`, `C62_wave_activity_mirrors_partial`, `C62_wave_activity_mirrors_refuted`, `C63_vgrad_refuted`, `C63_without_vgrad_partial`, `C115_variants_agree`, `C115_forcing_term`, `C116_recomputed_wave_activity`, `C117_function_and_object_agree`, `C118_southern_undisturbed_partial`, `C118_northern_reversed`, `C118_northern_undisturbed_refuted`, `C119_profiles_compared`, `C119_southern_range_partial`, `C119_northern_range_refuted`, `C120_returns_a_pair_partial`, `C121_reference_ordered_and_in_range`
- `PropertiesXarray.v`: `C58_extra_dimensions_restored`
- `PropertiesXarray2.v`: `C111_orientation_is_immaterial`, `C57_labels_exchanged`, `C57_labels_refuted`, `C57_single_profile_partial`, `C59_budget_closes`, `C59_windows_add`, `C59_linear_tendency_exact`, `C59_integral_between`, `C112_seconds_partial`, `C112_seconds_refuted`, `C60_mirror_extension`, `C60_latitudes`, `C60_accepts`, `C113_mixed_arguments_partial`, `C113_mixed_arguments_refuted`, `C114_forcing_shape_partial`, `C114_northern_only_refuted`
- `PropertiesXarray3.v`: `C172_every_variable_has_its_axes`, `C172_other_shapes_are_refused`
