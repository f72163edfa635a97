{
 "claims": [
  {
   "property": "C01",
   "status": "proved",
   "theorems": [
    "C01_lwa_is_displaced_contour_integral"
   ],
   "note": ""
  },
  {
   "property": "C02",
   "status": "proved",
   "theorems": [
    "C02_lwa_nonnegative",
    "C02_lwa_nonnegative_exact"
   ],
   "note": ""
  },
  {
   "property": "C03",
   "status": "proved",
   "theorems": [
    "C03_lwa_zero_iff_undisturbed",
    "C03_symmetric_flow_has_zero_lwa"
   ],
   "note": ""
  },
  {
   "property": "C04",
   "status": "proved",
   "theorems": [
    "C04_partition_sums_to_total"
   ],
   "note": ""
  },
  {
   "property": "C05",
   "status": "proved",
   "theorems": [
    "C05_lwa_column_local",
    "C05_lwa_zonal_relabelling"
   ],
   "note": ""
  },
  {
   "property": "C06",
   "status": "proved",
   "theorems": [
    "C06_lwa_affine_equivariant"
   ],
   "note": ""
  },
  {
   "property": "C07",
   "status": "proved",
   "theorems": [
    "C07_bigsigma_is_forcing_integral",
    "C07_bigsigma_none",
    "C07_bigsigma_linear"
   ],
   "note": ""
  },
  {
   "property": "C08",
   "status": "proved",
   "theorems": [
    "C08_profile_is_area_map_of_contours",
    "C08_cumulative_area_monotone_and_bounded"
   ],
   "note": ""
  },
  {
   "property": "C09",
   "status": "proved",
   "theorems": [
    "C09_profile_monotone_and_in_range"
   ],
   "note": ""
  },
  {
   "property": "C10",
   "status": "proved",
   "theorems": [
    "C10_default_area_at_most_sphere",
    "C10_default_object_profile"
   ],
   "note": ""
  },
  {
   "property": "C11",
   "status": "proved",
   "theorems": [
    "C11_rearrangement_invariant"
   ],
   "note": ""
  },
  {
   "property": "C12",
   "status": "proved",
   "theorems": [
    "C12_profile_affine_equivariant"
   ],
   "note": ""
  },
  {
   "property": "C13",
   "status": "proved",
   "theorems": [
    "C13_vgrad_and_fawa_profiles_agree"
   ],
   "note": ""
  },
  {
   "property": "C14",
   "status": "proved",
   "theorems": [
    "C14_bracket_in_data_hull",
    "C14_bin_average_in_range"
   ],
   "note": ""
  },
  {
   "property": "C15",
   "status": "proved",
   "theorems": [
    "C15_reads_order_independent",
    "C15_read_values",
    "C15_assignment_seen_by_equivalent_latitudes"
   ],
   "note": ""
  },
  {
   "property": "C16",
   "status": "partial",
   "theorems": [
    "C16_lwa_follows_assignment_if_unread_partial",
    "C16_lwa_frozen_after_first_read",
    "C16_lwa_consistent_after_assignment_refuted"
   ],
   "note": "The full claim is false of the code: once read, lwa stays frozen when pv_field is replaced (_refuted). Proved: it follows the assignment if it was not read before, and exactly what it returns otherwise."
  },
  {
   "property": "C17",
   "status": "proved",
   "theorems": [
    "C17_zonal_convergence_sums_to_zero",
    "C17_zonal_convergence_linear",
    "C17_zonal_convergence_kills_uniform_rows",
    "C17_zonal_convergence_commutes_with_rotation"
   ],
   "note": ""
  },
  {
   "property": "C18",
   "status": "proved",
   "theorems": [
    "C18_zonal_convergence_is_centred_periodic_difference"
   ],
   "note": ""
  },
  {
   "property": "C19",
   "status": "partial",
   "theorems": [
    "C19_pole_rows_zero_refuted",
    "C19_pole_rows_value_partial"
   ],
   "note": "False of the code: rows with |clat| <= tol return the raw, undivided difference (_refuted for every tol). Proved: the exact value returned there."
  },
  {
   "property": "C20",
   "status": "partial",
   "theorems": [
    "C20_meridional_divergence_interior",
    "C20_meridional_divergence_edges_refuted"
   ],
   "note": "Interior rows proved. The edge clause is false: for every f with f*clat linear in latitude the first and last rows return half the derivative (_refuted, universally quantified)."
  },
  {
   "property": "C21",
   "status": "proved",
   "theorems": [
    "C21_curl_zero_on_first_and_last_row",
    "C21_curl_interior_value",
    "C21_curl_row_sum_only_sees_neighbouring_u",
    "C21_curl_stokes",
    "C21_curl_linear"
   ],
   "note": ""
  },
  {
   "property": "C22",
   "status": "proved",
   "theorems": [
    "C22_hemispheric_means_within_data_range",
    "C22_hemispheric_mean_is_area_weighted",
    "C22_static_stability_exact_on_linear_profiles",
    "C22_accepts_every_column_of_two_levels"
   ],
   "note": ""
  },
  {
   "property": "C23",
   "status": "partial",
   "theorems": [
    "C23_result_determined_on_covered_rows_partial",
    "C23_qgpv_value_for_even_nlat",
    "C23_result_determined_refuted"
   ],
   "note": "False for every odd nlat >= 3 (_refuted): the middle row reads np.empty memory. Proved: the result is determined on covered rows (all rows for even nlat), with its exact value."
  },
  {
   "property": "C24",
   "status": "proved",
   "theorems": [
    "C24_z_derivative_linear_in_g",
    "C24_z_derivative_exact"
   ],
   "note": ""
  },
  {
   "property": "C25",
   "status": "proved",
   "theorems": [
    "C25_northern_write_changes_exactly_the_last_rows",
    "C25_southern_write_changes_exactly_the_first_rows_flipped",
    "C25_northern_read_returns_what_was_written",
    "C25_southern_read_returns_the_flipped_write"
   ],
   "note": ""
  },
  {
   "property": "C26",
   "status": "proved",
   "theorems": [
    "C26_both_hemispheres_determine_every_row"
   ],
   "note": ""
  },
  {
   "property": "C27",
   "status": "proved",
   "theorems": [
    "C27_northern_only_mode_refuses_southern_access"
   ],
   "note": ""
  },
  {
   "property": "C28",
   "status": "partial",
   "theorems": [
    "C28_declared_views_exist_partial",
    "C28_declared_views_exist_refuted"
   ],
   "note": "False of the code: LayerwiseFluxTermsStorage declares ep4_nhem/ep4_shem without an ep4 array (_refuted). Proved for every other declared property."
  },
  {
   "property": "C29",
   "status": "proved",
   "theorems": [
    "C29_index_orders_are_inverse",
    "C29_declared_shapes_convert"
   ],
   "note": ""
  },
  {
   "property": "C30",
   "status": "proved",
   "theorems": [
    "C30_equator_index_marks_the_only_zero",
    "C30_descending_first_step_rejected",
    "C30_acceptance_condition"
   ],
   "note": ""
  },
  {
   "property": "C31",
   "status": "partial",
   "theorems": [
    "C31_even_grids_accepted_partial",
    "C31_even_grids_accepted_refuted"
   ],
   "note": "True in exact arithmetic (C30_acceptance_condition) and in binary64 when 180/nlat is dyadic (_partial); false in binary64 for nlat = 78 (_refuted: IndexError for every such grid)."
  },
  {
   "property": "C32",
   "status": "partial",
   "theorems": [
    "C32_symmetric_grids_are_centred_partial",
    "C32_accepted_grids_are_centred_refuted"
   ],
   "note": "False of the code: every off-centre grid with one zero is accepted (_refuted). Proved: symmetric ascending grids are always accepted and the equator is the middle row."
  },
  {
   "property": "C33",
   "status": "proved",
   "theorems": [
    "C33_analysis_heights_below_data_top",
    "C33_interpolated_values_between_bracketing_levels",
    "C33_interpolation_exact_on_nodes_and_lines"
   ],
   "note": ""
  },
  {
   "property": "C34",
   "status": "partial",
   "theorems": [
    "C34_vertical_average_preserves_constants_refuted",
    "C34_vertical_average_of_constant_value_partial",
    "C34_vertical_average_bounds_partial",
    "C34_vertical_average_linear"
   ],
   "note": "False of the code for every constant (_refuted): the weights sum to more than 1 because the top level is missing from the prefactor. Proved: the exact factor, linearity, and bounds for columns vanishing at the top."
  },
  {
   "property": "C35",
   "status": "proved",
   "theorems": [
    "C35_barotropic_lwa_paths_agree"
   ],
   "note": ""
  },
  {
   "property": "C36",
   "status": "partial",
   "theorems": [
    "C36_u_baro_paths_agree_refuted",
    "C36_u_baro_paths_partial"
   ],
   "note": "False of the code (_refuted): the python average includes the top level, the kernel does not, and the kernel leaves the non-analysed rows zero. Proved: the exact difference, row by row."
  },
  {
   "property": "C37",
   "status": "proved",
   "theorems": [
    "C37_fluxes_return_iff_every_solve_converged",
    "C37_fluxes_need_interpolation_then_reference_states"
   ],
   "note": ""
  },
  {
   "property": "C38",
   "status": "partial",
   "theorems": [
    "C38_no_recovery_after_nonconvergence",
    "C38_recovery_after_failed_solve_refuted"
   ],
   "note": "False of the code (_refuted): the non-convergence flag is never cleared. Proved in its strongest form: once a solve failed no later history makes the fluxes available."
  },
  {
   "property": "C39",
   "status": "partial",
   "theorems": [
    "C39_fluxes_use_matching_reference_state_partial",
    "C39_fluxes_in_general",
    "C39_stale_reference_state_refuted"
   ],
   "note": "False of the code (_refuted): interpolate_fields does not reset the reference states. Proved: the exact pair of inputs used in general, and agreement when no interpolation came after the last solve."
  },
  {
   "property": "C40",
   "status": "proved",
   "theorems": [
    "C40_layerwise_readable_iff_computed",
    "C40_layerwise_read_before_computation_raises"
   ],
   "note": ""
  },
  {
   "property": "C41",
   "status": "partial",
   "theorems": [
    "C41_lwa_only_requires_exactly_interpolation",
    "C41_layerwise_requires_exactly_interpolation",
    "C41_lwa_without_reference_state_uses_zeros",
    "C41_computes_without_reference_state_refuted"
   ],
   "note": "False of the code (_refuted): both methods run on the zero reference state. Proved: they need exactly interpolate_fields (and, for the layerwise method, an odd grid or an ncforce argument)."
  },
  {
   "property": "C42",
   "status": "proved",
   "theorems": [
    "C42_symmetric_reference_states",
    "C42_symmetric_lwa_and_fluxes",
    "C42_symmetric_heating_gives_odd_forcing"
   ],
   "note": ""
  },
  {
   "property": "C43",
   "status": "proved",
   "theorems": [
    "C43_symmetric_state_gives_symmetric_results",
    "C43_symmetric_after_reference_states"
   ],
   "note": "The reference states are included, for NH18 with its own solver; for NHN22 see C110."
  },
  {
   "property": "C44",
   "status": "partial",
   "theorems": [
    "C44_reported_iteration_count",
    "C44_convergence_before_last_iteration_partial",
    "C44_convergence_on_last_iteration_refuted"
   ],
   "note": "False at the last iteration for every maxit >= 2 (_refuted). Proved: the exact iteration count and that convergence strictly before maxit is what counts."
  },
  {
   "property": "C45",
   "status": "proved",
   "theorems": [
    "C45_lwa_kernel_is_displaced_contour_integral",
    "C45_lwa_kernel_zero_outside",
    "C45_lwa_kernel_nonnegative"
   ],
   "note": ""
  },
  {
   "property": "C46",
   "status": "proved",
   "theorems": [
    "C46_kernels_return_same_lwa"
   ],
   "note": ""
  },
  {
   "property": "C47",
   "status": "partial",
   "theorems": [
    "C47_memory_bounds_refuted",
    "C47_memory_bounds_partial"
   ],
   "note": "False of the code for every grid (_refuted): the first analysed row reads uref(0,k). Proved: a complete classification of every array reference of the northern kernel - the out-of-bounds ones are exactly the uref(0,k) reads and, for jb = 0, the writes to row 0 of ep2/ep3."
  },
  {
   "property": "C48",
   "status": "partial",
   "theorems": [
    "C48_momentum_flux_south_refuted",
    "C48_momentum_flux_partial"
   ],
   "note": "North neighbour proved; the south neighbour is false in the first analysed row (_refuted for every grid): the kernel reads column index 0 of uref, i.e. the polar reference wind of the level below. Proved: exact values in every row."
  },
  {
   "property": "C49",
   "status": "proved",
   "theorems": [
    "C49_f1_is_reference_wind_times_lwa",
    "C49_undisturbed_flow_has_no_fluxes"
   ],
   "note": ""
  },
  {
   "property": "C50",
   "status": "partial",
   "theorems": [
    "C50_vorticity_uses_longitude_spacing_refuted",
    "C50_vorticity_partial"
   ],
   "note": "False of the code whenever nlon <> 2 (nlat - 1) (_refuted, universally quantified): the zonal derivative is divided by the latitude spacing. Proved: the exact value, and correctness for nlon = 2 (nlat - 1)."
  },
  {
   "property": "C51",
   "status": "partial",
   "theorems": [
    "C51_bins_stay_in_bounds",
    "C51_cumulative_area_partial",
    "C51_contour_area_refuted",
    "C51_reported_contour_encloses_the_cap"
   ],
   "note": "False of the code (_refuted): the cumulative area drops the cells above the second contour and includes one interval too many; exact defect proved (_partial). Proved: bins stay in bounds, and the contour reported for a row encloses the cap area within two contour intervals. Levels of uniform PV (division by zero in the code) are excluded."
  },
  {
   "property": "C52",
   "status": "partial",
   "theorems": [
    "C52_reference_pv_in_range_and_monotone_partial",
    "C52_unbracketed_row_is_zero",
    "C52_range_refuted",
    "C52_reported_north_partial",
    "C52_reported_south_partial"
   ],
   "note": "Proved wherever the cap of the row is smaller than the area below the second contour; other rows get exactly 0, so the range claim is false there (_refuted)."
  },
  {
   "property": "C53",
   "status": "partial",
   "theorems": [
    "C53_pass_without_change_iff_solution",
    "C53_converged_residual_partial",
    "C53_reported_convergence_refuted"
   ],
   "note": "The fixed-point equivalence is proved. Reported convergence only bounds the residual on the colour treated last (_partial); for rjac = 0.95 and any tol <= 1/2 a run reports convergence with a residual above 4/5 of the forcing (_refuted)."
  },
  {
   "property": "C54",
   "status": "proved",
   "theorems": [
    "C54_direct_inversion_solves_the_problem",
    "C54_reported_wind_solves_the_problem"
   ],
   "note": "Boundary rows at least four rows from the pole (with three, the boundary value is overwritten and lost). LAPACK is assumed to return the exact inverse of a nonsingular matrix; such an inversion is constructed."
  },
  {
   "property": "C55",
   "status": "proved",
   "theorems": [
    "C55_hemispheric_mean_theta_kept",
    "C55_reported_mean_theta"
   ],
   "note": "Proved for the solver and for the arrays an object reports (northern-only mode, and the southern hemisphere in global mode; in global mode the equator row of the northern solution is overwritten)."
  },
  {
   "property": "C56",
   "status": "partial",
   "theorems": [
    "C56_boundary_row_of_the_reported_wind",
    "C56_boundary_condition_reported_refuted"
   ],
   "note": "False of the code (_refuted for the resting atmosphere): the boundary row of the reported wind is 0, or -omega*a on the top level, whatever the input. Proved: that value."
  },
  {
   "property": "C57",
   "status": "partial",
   "theorems": [
    "C57_labels_exchanged",
    "C57_labels_refuted",
    "C57_single_profile_partial"
   ],
   "note": "Violated for QGFieldNHN22 with both hemispheres: the field returns (southern, northern) and the dataset names them _n and _s in that order (C57_labels_refuted, C57_labels_exchanged says what is stored). A single profile is labelled correctly (C57_single_profile_partial)."
  },
  {
   "property": "C58",
   "status": "proved",
   "theorems": [
    "C58_extra_dimensions_restored"
   ],
   "note": ""
  },
  {
   "property": "C59",
   "status": "proved",
   "theorems": [
    "C59_budget_closes",
    "C59_windows_add",
    "C59_linear_tendency_exact",
    "C59_integral_between"
   ],
   "note": ""
  },
  {
   "property": "C60",
   "status": "proved",
   "theorems": [
    "C60_mirror_extension",
    "C60_latitudes",
    "C60_accepts"
   ],
   "note": ""
  },
  {
   "property": "C61",
   "status": "proved",
   "theorems": [
    "C61_names_resolved",
    "C61_names_unique"
   ],
   "note": ""
  },
  {
   "property": "C62",
   "status": "partial",
   "theorems": [
    "C62_both_hemispheres",
    "C62_equator_row",
    "C62_reference_mirrors",
    "C62_wave_activity_mirrors_partial",
    "C62_wave_activity_mirrors_refuted"
   ],
   "note": "Composition and mirror symmetry of the reference are proved in full. Mirror symmetry of the wave activity is false of the code (_refuted): the row itself is always counted with the rows south of it; the exact difference is proved in C62_wave_activity_mirrors_partial."
  },
  {
   "property": "C63",
   "status": "partial",
   "theorems": [
    "C63_vgrad_refuted",
    "C63_without_vgrad_partial"
   ],
   "note": "False of the code: eqvlat_bracket_hemispheric passes arguments its callee does not accept and always raises TypeError, and so does qgpv_eqlat_lwa_options with vgrad (_refuted). Proved: without vgrad the options function returns."
  },
  {
   "property": "C64",
   "status": "proved",
   "theorems": [
    "C64_sample_covariance_per_cell",
    "C64_symmetric"
   ],
   "note": ""
  },
  {
   "property": "C65",
   "status": "partial",
   "theorems": [
    "C65_complete_level_unchanged",
    "C65_numbers_kept_partial",
    "C65_infinities_replaced_refuted"
   ],
   "note": "Complete levels come back unchanged and numbers are never altered, assuming the external fill keeps unmasked points (contract of gridfill.fill). The second half of the claim is false for infinities: on a level holding a NaN, infinite values are replaced as well (_refuted)."
  },
  {
   "property": "C66",
   "status": "proved",
   "theorems": [
    "C66_index_bijection",
    "C66_no_slip_system",
    "C66_adiabatic_system"
   ],
   "note": ""
  },
  {
   "property": "C67",
   "status": "proved",
   "theorems": [
    "C67_lwa_lipschitz"
   ],
   "note": ""
  },
  {
   "property": "C68",
   "status": "proved",
   "theorems": [
    "C68_profile_matches_area"
   ],
   "note": ""
  },
  {
   "property": "C69",
   "status": "partial",
   "theorems": [
    "C69_fawa_is_circulation_difference_partial",
    "C69_fawa_zero_for_constant_field_refuted"
   ],
   "note": "False of the code for fields with non-zero global circulation (_refuted, constant field). Proved: exact FAWA formula with the global circulation as the defect."
  },
  {
   "property": "C70",
   "status": "proved",
   "theorems": [
    "C70_curl_of_gradient_is_zero"
   ],
   "note": ""
  },
  {
   "property": "C71",
   "status": "proved",
   "theorems": [
    "C71_curl_of_solid_body_rotation"
   ],
   "note": ""
  },
  {
   "property": "C72",
   "status": "proved",
   "theorems": [
    "C72_meridional_divergence_flux_form"
   ],
   "note": ""
  },
  {
   "property": "C73",
   "status": "proved",
   "theorems": [
    "C73_views_never_change_array_sizes"
   ],
   "note": ""
  },
  {
   "property": "C74",
   "status": "partial",
   "theorems": [
    "C74_accepted_wind_shapes_partial",
    "C74_temperature_shape_checked_refuted"
   ],
   "note": "Proved for u_field and v_field; false for t_field (_refuted): a (nlat, nlon) or (1, nlat, nlon) temperature is accepted."
  },
  {
   "property": "C75",
   "status": "partial",
   "theorems": [
    "C75_even_grid_northern_only_returns_fields_refuted"
   ],
   "note": "False of the code (_refuted): on every even grid in northern-only mode reading these raises ValueError. Results stored with hemispheric rows are returned (C76)."
  },
  {
   "property": "C76",
   "status": "proved",
   "theorems": [
    "C76_returned_values_stay_in_range"
   ],
   "note": ""
  },
  {
   "property": "C77",
   "status": "partial",
   "theorems": [
    "C77_layerwise_on_even_grid_refuted",
    "C77_layerwise_on_odd_grid_partial"
   ],
   "note": "False of the code on every even grid (_refuted: the default ncforce has the user's number of rows). Proved on odd grids."
  },
  {
   "property": "C78",
   "status": "partial",
   "theorems": [
    "C78_northern_only_even_grid_pipeline_refuted"
   ],
   "note": "False of the code (_refuted, for every history)."
  },
  {
   "property": "C79",
   "status": "partial",
   "theorems": [
    "C79_uncomputed_reference_state_reads_as_zero_refuted"
   ],
   "note": "False of the code (_refuted): the arrays exist from construction and are returned as zeros."
  },
  {
   "property": "C80",
   "status": "proved",
   "theorems": [
    "C80_lwa_only_available_after_nonconvergence"
   ],
   "note": ""
  },
  {
   "property": "C81",
   "status": "partial",
   "theorems": [
    "C81_barotropic_lwa_paths_agree_on_pseudoheight_input_refuted",
    "C81_barotropic_lwa_paths_partial"
   ],
   "note": "False of the code when evenly spaced pseudoheights do not start at 0 (_refuted). Proved: the two averages differ by exactly the factor exp(-h0/H), so agree when the first level is at height 0."
  },
  {
   "property": "C82",
   "status": "proved",
   "theorems": [
    "C82_forcing_is_displaced_integral",
    "C82_forcing_linear",
    "C82_no_forcing"
   ],
   "note": ""
  },
  {
   "property": "C83",
   "status": "proved",
   "theorems": [
    "C83_f2_formula",
    "C83_f3_formula",
    "C83_heat_flux_formula"
   ],
   "note": ""
  },
  {
   "property": "C84",
   "status": "partial",
   "theorems": [
    "C84_zero_outside_analysed_rows_refuted",
    "C84_zero_outside_analysed_rows_partial",
    "C84_pole_row_content_partial"
   ],
   "note": "False of the code for jb = 0 (_refuted): the equatorward momentum flux of level k is written out of bounds into the pole row of level k-1. Proved: every array is zero outside the analysed rows except ep2/ep3 in the one boundary row, whose content is given."
  },
  {
   "property": "C86",
   "status": "proved",
   "theorems": [
    "C86_qgpv_is_vorticity_plus_stretching",
    "C86_pole_rows_are_zonal_means",
    "C86_qgpv_zero_at_lowest_and_top_level"
   ],
   "note": ""
  },
  {
   "property": "C87",
   "status": "proved",
   "theorems": [
    "C87_qgpv_of_mirrored_state"
   ],
   "note": ""
  },
  {
   "property": "C88",
   "status": "proved",
   "theorems": [
    "C88_solid_body_rotation"
   ],
   "note": ""
  },
  {
   "property": "C89",
   "status": "proved",
   "theorems": [
    "C89_qgpv_zonal_relabelling"
   ],
   "note": ""
  },
  {
   "property": "C85",
   "status": "proved",
   "theorems": [
    "C85_northern_results_same_nh18",
    "C85_northern_results_same_nhn22",
    "C85_northern_results_same_nh18_solver"
   ],
   "note": "For NH18 proved both for any solver whose equatorial wind is the same for both calls and, unconditionally, for the modelled solver."
  },
  {
   "property": "C90",
   "status": "partial",
   "theorems": [
    "C90_hemispheric_means_in_range",
    "C90_off_centre_grid_refuted"
   ],
   "note": "True on grids with the equator in the middle; false (_refuted) on an off-centre grid, which the constructor accepts."
  },
  {
   "property": "C91",
   "status": "proved",
   "theorems": [
    "C91_lwa_only_agrees"
   ],
   "note": ""
  },
  {
   "property": "C92",
   "status": "partial",
   "theorems": [
    "C92_components_add_up_north",
    "C92_components_add_up_refuted"
   ],
   "note": "True north of the equator; false south of it (_refuted): the southern components are stored under undeclared attribute names and astar1/astar2 stay zero."
  },
  {
   "property": "C93",
   "status": "proved",
   "theorems": [
    "C93_layerwise_lwa_agrees"
   ],
   "note": ""
  },
  {
   "property": "C94",
   "status": "proved",
   "theorems": [
    "C94_barotropic_lwa_nonnegative"
   ],
   "note": ""
  },
  {
   "property": "C95",
   "status": "proved",
   "theorems": [
    "C95_thermal_wind_balance",
    "C95_reported_states_balanced"
   ],
   "note": "Proved for the solver and for the arrays an object reports. With both hemispheres the first row north of the equator is excluded for the object: the equator row there holds the southern solution."
  },
  {
   "property": "C96",
   "status": "partial",
   "theorems": [
    "C96_edges_of_the_reference_wind",
    "C96_equatorial_value_used_refuted"
   ],
   "note": "Edge values proved. The equatorial boundary condition of the inversion differs from the reported value (_refuted)."
  },
  {
   "property": "C97",
   "status": "proved",
   "theorems": [
    "C97_unique_reference_wind"
   ],
   "note": ""
  },
  {
   "property": "C98",
   "status": "proved",
   "theorems": [
    "C98_reference_states_ignore_longitudes"
   ],
   "note": ""
  },
  {
   "property": "C99",
   "status": "partial",
   "theorems": [
    "C99_deterministic_when_bracketed_partial",
    "C99_uninitialised_circulation_refuted"
   ],
   "note": "True when the area below the second contour exceeds a hemisphere at every interior level (_partial); otherwise cref(1,k) is read uninitialised and the wind depends on it (_refuted)."
  },
  {
   "property": "C100",
   "status": "proved",
   "theorems": [
    "C100_top_temperature_gradient"
   ],
   "note": ""
  },
  {
   "property": "C101",
   "status": "proved",
   "theorems": [
    "C101_iteration_count"
   ],
   "note": ""
  },
  {
   "property": "C102",
   "status": "proved",
   "theorems": [
    "C102_equatorial_boundary_condition"
   ],
   "note": ""
  },
  {
   "property": "C103",
   "status": "proved",
   "theorems": [
    "C103_no_singular_matrix"
   ],
   "note": ""
  },
  {
   "property": "C104",
   "status": "partial",
   "theorems": [
    "C104_boundary_wind_at_the_equator_partial",
    "C104_boundary_wind_refuted"
   ],
   "note": "False of the code whenever the boundary row is not the equator (_refuted for every such input): omega*a*cos is subtracted where omega*a*cos^2 belongs. Proved for boundary row 0."
  },
  {
   "property": "C105",
   "status": "partial",
   "theorems": [
    "C105_top_shear_partial",
    "C105_top_shear_refuted"
   ],
   "note": "False of the code when rows are left out at the equator (_refuted): the gradient is taken jb rows nearer the equator. Proved for boundary row 0."
  },
  {
   "property": "C106",
   "status": "proved",
   "theorems": [
    "C106_reported_states_balanced"
   ],
   "note": ""
  },
  {
   "property": "C107",
   "status": "partial",
   "theorems": [
    "C107_reported_mean_theta",
    "C107_southern_mean_theta_refuted"
   ],
   "note": "Northern hemisphere proved. The southern reference state is given the northern mean (proved), so the claim fails when the means differ (_refuted)."
  },
  {
   "property": "C108",
   "status": "proved",
   "theorems": [
    "C108_same_reference_pv"
   ],
   "note": ""
  },
  {
   "property": "C109",
   "status": "proved",
   "theorems": [
    "C109_mirrored_state_gives_mirrored_results"
   ],
   "note": ""
  },
  {
   "property": "C110",
   "status": "partial",
   "theorems": [
    "C110_nhn22_mirrored_partial",
    "C110_nhn22_mirrored_refuted"
   ],
   "note": "The full statement is refuted (C110_nhn22_mirrored_refuted): the reference temperature of a mirrored state is not the mirrored one. C110_nhn22_mirrored_partial proves everything that does not depend on the reference wind and temperature, and the rest under the hypothesis that these two are mirrored."
  },
  {
   "property": "C111",
   "status": "proved",
   "theorems": [
    "C111_orientation_is_immaterial"
   ],
   "note": ""
  },
  {
   "property": "C112",
   "status": "partial",
   "theorems": [
    "C112_seconds_partial",
    "C112_seconds_refuted"
   ],
   "note": "True for nanosecond dates (C112_seconds_partial); the divisor 1e9 is fixed, so with dates counted in seconds an hour is reported as 3.6e-6 (C112_seconds_refuted; pandas/xarray versions with other resolutions)."
  },
  {
   "property": "C113",
   "status": "partial",
   "theorems": [
    "C113_mixed_arguments_partial",
    "C113_mixed_arguments_refuted"
   ],
   "note": "True when u is a Dataset (C113_mixed_arguments_partial). With u a DataArray a Dataset given for v or t passes the type checks but cannot be renamed (C113_mixed_arguments_refuted)."
  },
  {
   "property": "C114",
   "status": "partial",
   "theorems": [
    "C114_forcing_shape_partial",
    "C114_northern_only_refuted"
   ],
   "note": "The partial theorem gives the values whenever a result is returned; in the northern-only mode no result is returned because the field returns all rows while the variable is registered with the northern rows (C114_northern_only_refuted)."
  },
  {
   "property": "C115",
   "status": "proved",
   "theorems": [
    "C115_variants_agree",
    "C115_forcing_term"
   ],
   "note": ""
  },
  {
   "property": "C116",
   "status": "proved",
   "theorems": [
    "C116_recomputed_wave_activity"
   ],
   "note": ""
  },
  {
   "property": "C117",
   "status": "proved",
   "theorems": [
    "C117_function_and_object_agree"
   ],
   "note": ""
  },
  {
   "property": "C118",
   "status": "partial",
   "theorems": [
    "C118_southern_undisturbed_partial",
    "C118_northern_reversed",
    "C118_northern_undisturbed_refuted"
   ],
   "note": "True in the southern rows (proved). False in the northern rows (_refuted): the same one-sided test is used although temperature decreases northward there; C118_northern_reversed states exactly when the northern value is zero."
  },
  {
   "property": "C119",
   "status": "partial",
   "theorems": [
    "C119_profiles_compared",
    "C119_southern_range_partial",
    "C119_northern_range_refuted"
   ],
   "note": "The northern half has the opposite sign of the field (_refuted); southern range and exact relation to qgpv_eqlat_lwa proved."
  },
  {
   "property": "C120",
   "status": "partial",
   "theorems": [
    "C120_returns_a_pair_partial"
   ],
   "note": "The function returns a pair (array, None), not the documented array; the first component is the wave activity."
  },
  {
   "property": "C121",
   "status": "proved",
   "theorems": [
    "C121_reference_ordered_and_in_range"
   ],
   "note": ""
  },
  {
   "property": "C122",
   "status": "proved",
   "theorems": [
    "C122_covariance_laws"
   ],
   "note": ""
  },
  {
   "property": "C123",
   "status": "partial",
   "theorems": [
    "C123_unique_reference_states",
    "C123_adiabatic_three_levels_refuted"
   ],
   "note": "Proved for both boundary conditions and at least four levels, under the exactness contract of spsolve (scipy's solver is external). With three levels the adiabatic problem has more than one solution (_refuted): top and bottom conditions constrain the same difference."
  },
  {
   "property": "C124",
   "status": "proved",
   "theorems": [
    "C124_temperature_correction"
   ],
   "note": ""
  },
  {
   "property": "C125",
   "status": "partial",
   "theorems": [
    "C125_misplaced_balance_partial",
    "C125_last_rows_partial",
    "C125_thermal_wind_refuted"
   ],
   "note": "False of the code: Coriolis parameter and cosine are taken one row too far north (index j-1 of an array that starts one row higher), and the last even row is never computed and keeps zero (_refuted). Proved: the relation that does hold, and the value of the last row."
  },
  {
   "property": "C126",
   "status": "proved",
   "theorems": [
    "C126_nh18_turned_state_gives_turned_results",
    "C126_nhn22_turned_state_gives_turned_results"
   ],
   "note": ""
  },
  {
   "property": "C127",
   "status": "proved",
   "theorems": [
    "C127_zonally_uniform_state"
   ],
   "note": ""
  },
  {
   "property": "C128",
   "status": "proved",
   "theorems": [
    "C128_rolled_input_gives_rolled_output"
   ],
   "note": ""
  },
  {
   "property": "C129",
   "status": "partial",
   "theorems": [
    "C129_nh18_mirrored_input_gives_mirrored_output",
    "C129_nhn22_mirrored_input_gives_mirrored_activity_partial"
   ],
   "note": "NH18 in full; for NHN22 QGPV, winds, static stabilities, Qref, LWA, mean wind and forcing. Missing for NHN22: Uref, Ptref and the fluxes, for which the property is false (C110)."
  },
  {
   "property": "C130",
   "status": "partial",
   "theorems": [
    "C130_northern_only_gives_the_northern_rows",
    "C130_even_grids_refuted"
   ],
   "note": "Proved on grids with the equator; on grids without it the northern-only session raises ValueError (refuted)."
  },
  {
   "property": "C131",
   "status": "proved",
   "theorems": [
    "C131_session_succeeds_exactly_when"
   ],
   "note": ""
  },
  {
   "property": "C132",
   "status": "partial",
   "theorems": [
    "C132_derived_grid_numbers",
    "C132_dphi_is_the_spacing_from_pole_to_pole",
    "C132_dphi_is_the_spacing_refuted"
   ],
   "note": "All numbers proved; that dphi is the spacing is proved for analysis grids from pole to pole and refuted for accepted odd grids that stop short of the poles (dphi is always 180 / (nlat - 1) degrees)."
  },
  {
   "property": "C133",
   "status": "proved",
   "theorems": [
    "C133_reported_wave_activity_is_not_negative"
   ],
   "note": ""
  },
  {
   "property": "C134",
   "status": "partial",
   "theorems": [
    "C134_levels_of_the_data_are_kept",
    "C134_linear_profiles_are_kept",
    "C134_even_grids_keep_linear_winds_partial",
    "C134_even_grids_keep_winds_refuted"
   ],
   "note": "Proved on grids with the equator. On grids without it only winds linear in latitude are kept; in general refuted (interpolated there and back)."
  },
  {
   "property": "C135",
   "status": "partial",
   "theorems": [
    "C135_named_tuple_is_the_properties",
    "C135_named_tuple_rows_refuted"
   ],
   "note": "Proved on grids with the equator; without it the tuple has nlat + 1 rows (refuted)."
  },
  {
   "property": "C136",
   "status": "partial",
   "theorems": [
    "C136_heating_to_forcing",
    "C136_heating_on_every_grid_refuted"
   ],
   "note": "Returns exactly on grids with the equator; refuted on the others."
  },
  {
   "property": "C137",
   "status": "proved",
   "theorems": [
    "C137_suggestion_accepted_in_floating_point",
    "C137_at_most_one_level_more_in_binary64",
    "C137_suggested_kmax_is_the_largest_accepted"
   ],
   "note": ""
  },
  {
   "property": "C138",
   "status": "partial",
   "theorems": [
    "C138_first_steps_are_checked_partial",
    "C138_disordered_axes_are_rejected_refuted"
   ],
   "note": "Only the first step of each axis is checked; refuted."
  },
  {
   "property": "C139",
   "status": "proved",
   "theorems": [
    "C139_latitudes_of_the_results"
   ],
   "note": ""
  },
  {
   "property": "C140",
   "status": "proved",
   "theorems": [
    "C140_constructor_arguments_never_modified",
    "C140_other_arrays_never_modified"
   ],
   "note": ""
  },
  {
   "property": "C141",
   "status": "partial",
   "theorems": [
    "C141_results_keep_their_values_partial",
    "C141_results_keep_their_values_refuted",
    "C141_named_tuple_keeps_its_values_refuted",
    "C141_a_call_overwrites_only_its_own_results_partial",
    "C141_a_call_overwrites_its_own_results_refuted"
   ],
   "note": "Proved for every property on even grids, and on odd grids for qgpv, the interpolated fields, qref, the convergence, the divergence, the two flux vectors and (global mode) the stretch term. False of the code for the other properties on odd grids, each shown (_refuted), and for the named tuple of compute_lwa_and_barotropic_fluxes on every grid: those arrays are views of storage that the next computation writes in place."
  },
  {
   "property": "C142",
   "status": "partial",
   "theorems": [
    "C142_even_grid_input_fields_are_copied_partial",
    "C142_inputs_are_copied_refuted",
    "C142_result_is_the_input_array_refuted",
    "C142_interpolated_fields_are_new_arrays_partial"
   ],
   "note": "Proved on even grids for u_field, v_field, t_field (and t_field on odd grids, C143). False of the code for u_field and v_field on odd grids and for ylat on every grid: the object keeps references (_refuted)."
  },
  {
   "property": "C143",
   "status": "partial",
   "theorems": [
    "C143_edits_of_copies_never_reach_the_object_partial",
    "C143_editing_results_is_harmless_refuted"
   ],
   "note": "Proved for copies: everything returned by properties, interpolate_fields (without the static stability) and compute_reference_states on even grids, qref on odd grids. False of the code for the other arrays (_refuted)."
  },
  {
   "property": "C144",
   "status": "partial",
   "theorems": [
    "C144_identical_activity_partial",
    "C144_identical_activity_refuted"
   ],
   "note": "Proved with no meridional wind on the equator row. Refuted without that condition: hemisphere_to_globe keeps v on the equator, where antisymmetry would need 0, so the vorticity on the equator is seen with opposite signs by the two hemispheres; a 4 by 5 by 3 example gives lwa 0 at 45N and 2 at 45S."
  },
  {
   "property": "C145",
   "status": "proved",
   "theorems": [
    "C145_globe_accepted_exactly_with_an_exact_equator"
   ],
   "note": "Exact characterisation: accepted if and only if a latitude of the hemisphere is exactly 0."
  },
  {
   "property": "C146",
   "status": "proved",
   "theorems": [
    "C146_qgpv_follows_from_the_fields"
   ],
   "note": ""
  },
  {
   "property": "C147",
   "status": "proved",
   "theorems": [
    "C147_wave_activity_follows_from_qgpv"
   ],
   "note": ""
  },
  {
   "property": "C148",
   "status": "proved",
   "theorems": [
    "C148_zonal_flux_follows_from_the_fields"
   ],
   "note": ""
  },
  {
   "property": "C149",
   "status": "proved",
   "theorems": [
    "C149_meridional_flux_follows_from_the_fields"
   ],
   "note": ""
  },
  {
   "property": "C150",
   "status": "proved",
   "theorems": [
    "C150_heat_flux_wind_and_forcing_follow_from_the_fields"
   ],
   "note": ""
  },
  {
   "property": "C151",
   "status": "proved",
   "theorems": [
    "C151_even_grids_are_interpolated_odd_grids"
   ],
   "note": ""
  },
  {
   "property": "C152",
   "status": "proved",
   "theorems": [
    "C152_reference_states_are_in_thermal_wind_balance"
   ],
   "note": ""
  },
  {
   "property": "C153",
   "status": "partial",
   "theorems": [
    "C153_reference_pv_is_the_area_rearrangement_of_the_pv",
    "C153_reference_pv_encloses_the_cap_refuted"
   ],
   "note": "The area statement holds where the cap is smaller than the area left by the first contour (and this is a hypothesis); elsewhere qref is 0 (proved), which refutes the plain expectation."
  },
  {
   "property": "C154",
   "status": "proved",
   "theorems": [
    "C154_mean_reference_temperature"
   ],
   "note": ""
  },
  {
   "property": "C155",
   "status": "proved",
   "theorems": [
    "C155_nh18_reference_wind_at_the_edges",
    "C155_nhn22_reference_wind_at_the_edges"
   ],
   "note": ""
  },
  {
   "property": "C156",
   "status": "partial",
   "theorems": [
    "C156_nh18_returned_wind_solves_the_problem_partial",
    "C156_nh18_wind_solves_the_problem_or_is_zero"
   ],
   "note": "The tolerance bounds the misfit over every second point (those treated in the last half sweep), as in the code's own test; the misfit of the other points is not bounded by it."
  },
  {
   "property": "C157",
   "status": "proved",
   "theorems": [
    "C157_nhn22_wind_solves_the_problem"
   ],
   "note": ""
  },
  {
   "property": "C158",
   "status": "proved",
   "theorems": [
    "C158_which_sessions_are_refused"
   ],
   "note": ""
  },
  {
   "property": "C159",
   "status": "partial",
   "theorems": [
    "C159_lwa_only_gives_the_wave_activity_of_the_full_session",
    "C159_lwa_only_does_not_depend_on_the_wind_solver",
    "C159_barotropic_wind_of_lwa_only_partial",
    "C159_barotropic_wind_is_that_of_the_full_session_refuted"
   ],
   "note": "Refuted part: u_baro of compute_lwa_only leaves out the top level and rows without wave activity; the formula it has is proved."
  },
  {
   "property": "C160",
   "status": "proved",
   "theorems": [
    "C160_forcing_of_a_heating_rate"
   ],
   "note": ""
  },
  {
   "property": "C161",
   "status": "partial",
   "theorems": [
    "C161_nan_fills_its_longitude",
    "C161_nan_forcing_fills_its_longitude",
    "C161_infinity_fills_its_longitude",
    "C161_other_longitudes_unaffected",
    "C161_forcing_shows_missing_vorticity_refuted"
   ],
   "note": "Proved for double precision as implemented by IEEE 754 (Coq's SpecFloat). The expectation that the forcing term shows a missing vorticity is refuted by C161_forcing_shows_missing_vorticity_refuted."
  },
  {
   "property": "C162",
   "status": "partial",
   "theorems": [
    "C162_mask_is_ignored_partial",
    "C162_hidden_values_have_no_influence_refuted"
   ],
   "note": "The expectation is false: refuted universally. Proved part: the mask has no influence at all."
  },
  {
   "property": "C163",
   "status": "partial",
   "theorems": [
    "C163_rounded_activity_nonnegative_partial",
    "C163_single_precision_activity_nonnegative_refuted",
    "C163_southern_activity_nonnegative_refuted"
   ],
   "note": "False in single precision, refuted for all usual grids and for the southern mode; proved for every monotone rounding when no computed latitude passes 90 degrees. Elementary functions are assumed correctly rounded and overflow is not modelled."
  },
  {
   "property": "C164",
   "status": "proved",
   "theorems": [
    "C164_bins_in_bounds"
   ],
   "note": ""
  },
  {
   "property": "C165",
   "status": "proved",
   "theorems": [
    "C165_relative_accuracy",
    "C165_relative_error_bound",
    "C165_forcing_accuracy"
   ],
   "note": ""
  },
  {
   "property": "C166",
   "status": "partial",
   "theorems": [
    "C166_interpolated_where_possible",
    "C166_linear_profiles_are_reproduced",
    "C166_times_and_levels_are_independent",
    "C166_topography",
    "C166_topography_marks_the_ground_refuted",
    "C166_importable_refuted"
   ],
   "note": "Values proved. Two expectations are false and refuted: the topography is NaN also above the middle of the highest layer and between the middle of the lowest layer and the ground; and calling the function from another program raises NameError because it reads a global of the script."
  },
  {
   "property": "C167",
   "status": "partial",
   "theorems": [
    "C167_predigest_keeps_values_in_place",
    "C167_sample_script_keeps_values_in_place_refuted",
    "C167_budget_scripts_keep_values_in_place_refuted"
   ],
   "note": "True for predigest_data.py. Refuted for the other three programs: sample_run_script.py turns the data even if the axes are not turned, the two programs of lubis_et_al_2025 turn axes but never data; the exact condition is proved."
  },
  {
   "property": "C168",
   "status": "partial",
   "theorems": [
    "C168_one_slice_for_every_time_step",
    "C168_slices_follow_the_calendar",
    "C168_completes",
    "C168_all_times_processed_refuted",
    "C168_either_orientation_refuted"
   ],
   "note": "Contents and completion proved. Refuted: times after the month are ignored and shorter files make it fail; files from the ground on are refused."
  },
  {
   "property": "C169",
   "status": "partial",
   "theorems": [
    "C169_sample_script_completes_refuted",
    "C169_budget_script_writes_the_properties",
    "C169_budget_scripts_on_every_grid_refuted",
    "C169_forcing_script_completes"
   ],
   "note": "Refuted for the sample program (TypeError for every file: the routine it calls omits the required argument ncforce) and for grids without the equator; proved for grids with the equator."
  },
  {
   "property": "C170",
   "status": "partial",
   "theorems": [
    "C170_comparison_plot",
    "C170_all_differences_shown_refuted",
    "C170_maps_with_automatic_colours_refuted"
   ],
   "note": "Refuted in two points: differences above diff_factor times the largest value are left blank, and None raises TypeError on maps although documented. matplotlib's contourf is modelled by its check of the levels."
  },
  {
   "property": "C171",
   "status": "proved",
   "theorems": [
    "C171_time_slices",
    "C171_twice"
   ],
   "note": ""
  },
  {
   "property": "C172",
   "status": "proved",
   "theorems": [
    "C172_every_variable_has_its_axes",
    "C172_other_shapes_are_refused"
   ],
   "note": ""
  },
  {
   "property": "C173",
   "status": "partial",
   "theorems": [
    "C173_missing_pv_shows_in_the_activity_refuted",
    "C173_missing_reference_pv_shows_in_the_activity_refuted",
    "C173_missing_winds_show_in_the_fluxes_partial"
   ],
   "note": "The expectation is false for PV and reference PV (refuted for every input, format and elementary-function library): a NaN fails both comparisons and is counted as undisplaced; a NaN reference PV gives exactly 0. Proved: NaN winds and temperatures show in ep1 and the barotropic wind, NaN forcing in the rows whose contour is displaced across it."
  },
  {
   "property": "C174",
   "status": "partial",
   "theorems": [
    "C174_every_level_can_be_binned_refuted",
    "C174_index_of_a_level_of_uniform_pv_is_out_of_bounds"
   ],
   "note": "False of the code (_refuted): on a level of uniform PV, and at every missing value, the bin is 1 + int(NaN), which is out of bounds on x86. Levels with distinct values: C51, C164."
  },
  {
   "property": "C175",
   "status": "proved",
   "theorems": [
    "C175_wave_activity_accuracy",
    "C175_barotropic_activity_accuracy"
   ],
   "note": ""
  },
  {
   "property": "C176",
   "status": "proved",
   "theorems": [
    "C176_repeating_a_call_changes_nothing"
   ],
   "note": ""
  },
  {
   "property": "C177",
   "status": "proved",
   "theorems": [
    "C177_zonal_total_of_lwa_is_the_circulation_excess",
    "C177_lwa_is_least_for_the_area_preserving_reference",
    "C177_zonal_total_of_a_session_is_the_circulation_excess",
    "C177_session_wave_activity_is_least_for_the_area_preserving_reference"
   ],
   "note": ""
  },
  {
   "property": "C178",
   "status": "proved",
   "theorems": [
    "C178_forcing_enters_only_its_integral",
    "C178_solver_settings",
    "C178_number_of_contours",
    "C178_vertical_grid_of_the_data",
    "C178_more_iterations_change_nothing"
   ],
   "note": ""
  },
  {
   "property": "C179",
   "status": "proved",
   "theorems": [
    "C179_repeating_pattern",
    "C179_uniform_state",
    "C179_state_symmetric_about_the_equator"
   ],
   "note": ""
  },
  {
   "property": "C180",
   "status": "proved",
   "theorems": [
    "C180_reach_of_one_grid_point",
    "C180_missing_value_fills_its_reach"
   ],
   "note": ""
  },
  {
   "property": "C181",
   "status": "proved",
   "theorems": [
    "C181_winds_act_level_by_level",
    "C181_only_the_two_data_levels_around_a_level_matter"
   ],
   "note": ""
  },
  {
   "property": "C182",
   "status": "proved",
   "theorems": [
    "C182_unit_of_time",
    "C182_units_of_time_and_length",
    "C182_zonal_flux_convergence",
    "C182_units_nhn22"
   ],
   "note": ""
  },
  {
   "property": "C183",
   "status": "partial",
   "theorems": [
    "C183_missing_stability_never_converges",
    "C183_missing_pv_never_converges",
    "C183_missing_temperature_shows",
    "C183_missing_equatorial_wind_shows",
    "C183_missing_wind_shows_refuted"
   ],
   "note": "That every missing wind shows is refuted (C183_missing_wind_shows_refuted: the solver reads the wind on the equator only); the other parts are proved as stated."
  },
  {
   "property": "C184",
   "status": "proved",
   "theorems": [
    "C184_enough_iterations_suffice",
    "C184_otherwise_no_number_of_iterations_suffices"
   ],
   "note": "Over the real numbers; in floating point a tolerance below the rounding level of the residual need not be reached."
  },
  {
   "property": "C185",
   "status": "partial",
   "theorems": [
    "C185_stretching_term_adds_up_to_the_heat_flux_less_the_top",
    "C185_vertical_mean_of_the_stretching_term",
    "C185_mean_of_stretching_term_is_the_heat_flux_refuted"
   ],
   "note": "Refuted as documented (C185_mean_of_stretching_term_is_the_heat_flux_refuted: heat that crosses the top of the column is included). True version proved: the average is the low-level heat flux less the flux through the top, when the static stability at the two lowest levels is that of the mean potential temperature by differences; without that assumption in terms of the static stability used."
  },
  {
   "property": "C186",
   "status": "proved",
   "theorems": [
    "C186_momentum_is_only_redistributed_between_the_ends"
   ],
   "note": ""
  },
  {
   "property": "C187",
   "status": "proved",
   "theorems": [
    "C187_wave_activity_is_at_most_the_spread_of_pv_times_the_radius",
    "C187_wave_activity_is_bounded_on_even_grids_too"
   ],
   "note": ""
  },
  {
   "property": "C188",
   "status": "proved",
   "theorems": [
    "C188_no_wave_activity_exactly_when_no_air_is_displaced",
    "C188_barotropic_wave_activity_vanishes_exactly_when_that_of_all_levels_does"
   ],
   "note": ""
  },
  {
   "property": "C189",
   "status": "proved",
   "theorems": [
    "C189_wave_activity_changes_at_most_as_much_as_the_pv"
   ],
   "note": ""
  },
  {
   "property": "C190",
   "status": "proved",
   "theorems": [
    "C190_each_slice_is_analysed_as_its_own_field",
    "C190_results_depend_on_their_slice_only",
    "C190_the_dataset_is_analysed_when_every_slice_is"
   ],
   "note": ""
  },
  {
   "property": "C191",
   "status": "proved",
   "theorems": [
    "C191_wave_activity_of_a_dataset_is_not_negative"
   ],
   "note": ""
  },
  {
   "property": "C192",
   "status": "proved",
   "theorems": [
    "C192_routines_stay_inside_their_arrays",
    "C192_routines_stay_inside_for_uneven_fields",
    "C192_routines_stay_inside_in_single_precision",
    "C192_boundary_next_to_the_pole_leaves_the_arrays",
    "C192_bins_outside_are_written"
   ],
   "note": "Holds under two conditions; a boundary next to the pole, which QGFieldNHN22 accepts, violates it (C192_boundary_next_to_the_pole_leaves_the_arrays), and so does a bin outside the arrays (C192_bins_outside_are_written)."
  },
  {
   "property": "C193",
   "status": "partial",
   "theorems": [
    "C193_heights_are_the_levels_in_exact_arithmetic",
    "C193_heights_are_the_levels_refuted",
    "C193_at_most_one_height_too_many",
    "C193_heights_are_the_levels_partial",
    "C193_whole_spacings"
   ],
   "note": "Fails in binary64 for some spacings (C193_heights_are_the_levels_refuted); proved in exact arithmetic, and in binary64 whenever the product kmax*dz is exact, in particular for whole numbers of metres."
  },
  {
   "property": "C194",
   "status": "partial",
   "theorems": [
    "C194_no_report_for_sound_data_refuted",
    "C194_elements_taken_from_memory",
    "C194_other_elements_do_not_depend_on_memory"
   ],
   "note": "Fails (C194_no_report_for_sound_data_refuted); proved which elements are taken from uninitialised memory and that no other element depends on it."
  },
  {
   "property": "C195",
   "status": "proved",
   "theorems": [
    "C195_units_of_time_and_temperature",
    "C195_units_of_time_length_and_temperature",
    "C195_zonal_flux_convergence",
    "C195_units_nhn22"
   ],
   "note": "The hypothesis unit_free holds for interpolating splines. The code leaves UnivariateSpline's smoothing at its default, a fixed bound on the squared residuals, which is not scale free: with scipy the unit of temperature can matter, and the theorem shows that this is the only place."
  },
  {
   "property": "C196",
   "status": "proved",
   "theorems": [
    "C196_constant_added_to_potential_temperature",
    "C196_constant_added_leaves_fluxes",
    "C196_constant_added_to_reference_temperature"
   ],
   "note": "Latitudes symmetric about the equator are needed: the code divides the northern mean by the southern weights (oopinterface.py:252-256), so on other grids (which the constructor accepts, C32) the northern mean does not follow the constant. The equatorial boundary must leave a row beside the pole. The reference temperature is treated for sessions without an equatorial boundary, as its rows there hold zeros; the stretch term, which subtracts those zeros, is left out."
  }
 ]
}