# What `Print Assumptions` lists for each claimed theorem

Generated by `tools/assumptions.py` from the compiled modules.

## Closed under the global context (192 theorems)

* Props_Cache: C01_corrfunc_coherent_partial, C01_C03_configure_then_compute, C01_C03_free_changes, C01_C03_recompute, C01_corrfunc_coherent_refuted, C01_C03_exceptions_needed, C02_multipoles_coherent_partial, C02_multipoles_coherent_refuted, C03_average_multipoles_coherent_partial, C03_average_multipoles_coherent_refuted, C04_covariance_coherent_partial, C04_C05_configure_then_compute, C04_C05_free_changes, C04_C05_recompute, C04_covariance_coherent_refuted, C04_C05_exceptions_needed, C05_average_covariance_coherent_partial, C05_average_covariance_coherent_refuted, C11_read_parameters_partial, C11_read_parameters_refuted, C11_reading_changes_results, C49_point_matches_bulk_partial, C52_user_spectrum_partial, C52_user_spectrum_refuted, C52_lost_by, C54_computing_keeps_parameters_partial, C54_computing_keeps_parameters_refuted, C56_spectrum_range_partial, C56_spectrum_range_refuted, C56_spectrum_range_after_computing, C59_no_call_crashes_refuted, C57_C59_crashes, C58_background_coherent, C58_maximum_separation_coherent, C59_fresh_no_crash_partial
* Props_Valid: C06_rejected_assignment_partial, C06_rejected_assignment_refuted, C06_m_ncdm_refuted, C06_empty_spectrum_refuted, C07_ranges_partial, C07_lists, C07_ranges_refuted, C07_derived_out_of_range, C08_energy_budget, C09_matter_budget_partial, C09_matter_budget_refuted, C09_neutrinos_stale_after_h, C10_set_parameters_partial, C10_set_parameters_refuted, C50_option_round_trip, C50_option_rejected, C51_read_back_partial, C51_read_back_refuted, C51_truncated_refuted
* Props_Rounding: C09_unassigned_partial, C09_restored_partial, C89_negative_refuted, C89_rounding_refuted
* Props_Trip: C12_round_trip_partial, C12_tables, C12_loads_partial, C12_lost, C12_has_g2_refuted, C12_empty_refuted, C12_omega_cdm_refuted
* Props_Config: C13_order_partial, C13_one_coupled, C13_raises_refuted, C13_neutrinos_refuted
* Props_Drivers: C14_corrfunc, C14_multipoles, C14_average_multipoles, C14_position, C14_average_multipoles_refuted, C15_schedule_independent_partial, C15_parallel_loop, C15_no_race_on_records, C15_shared_lookup_refuted, C16_lookup_sequential_partial, C16_interval_unique, C16_lookup_in_bounds, C16_lookup_refuted, C49_corrfunc, C49_multipoles
* Props_Tables: C18_no_samples_refuted
* Props_Numeric: C29_binary64_refuted, C31_symmetries, C31_sign, C31_kronecker, C47_copy, C47_unknown_type_refuted, C48_elementwise, C48_null, C48_max, C48_max_empty, C48_max_nan_refuted
* Props_Files: C32_one_column_partial, C32_two_columns_partial, C32_columns_partial, C32_wide_table_refuted, C32_header_without_newline_refuted, C32_write_ncol_refuted, C33_read_1col_partial, C33_read_2col_partial, C33_read_ncol_partial, C33_columns, C33_unterminated_line_lost, C33_no_final_newline_refuted, C33_long_line_refuted, C33_long_comment_refuted, C33_byte_255_refuted, C33_blank_line_refuted, C34_write_matrix_partial, C34_write_matrix_refuted, C40_background_partial, C40_unknown_name_refuted, C40_twenty_columns_refuted, C40_many_columns_refuted, C40_long_header_refuted
* Props_Memory: C35_safe, C35_free_twice, C35_owned, C35_returns_partial, C35_returns_refuted, C35_not_all_returned
* Props_Bounds: C36_correlation, C36_multipoles, C36_average_partial, C36_average_refuted, C36_distance, C36_farthest, C36_distance_refuted
* Props_Main: C37_modules, C37_threads, C37_result_partial, C37_only, C37_information, C37_usage, C37_completes, C37_average_refuted, C37_rerun_refuted
* Props_Parser: C38_scalars, C38_optional, C38_methods, C38_lists, C38_derivatives_partial, C38_window, C38_lengths, C38_amplitude, C38_spectrum, C38_biases, C38_contributions, C38_densities, C38_derivatives_refuted, C38_pixelsize_refuted, C38_missing_text_refuted, C38_missing_list_refuted, C39_sampling_partial, C39_step_refuted, C39_average_covariance_refuted
* Props_Fft: C42_no_samples_refuted
* Props_Fft2: C42_two_samples_refuted, C42_no_sample_refuted
* Props_Quad: C44_inside_doubles_refuted
* Props_Fit: C46_no_separations_refuted
* Props_Class: C53_in_bounds, C53_complete_partial, C53_values, C53_fields, C53_complete_refuted, C55_A_s, C55_last_amplitude_partial, C55_last_amplitude_refuted, C55_small_A_s_refuted
* Props_Crash: C59_careful
* Props_Reset: C60_reset, C60_reset_succeeds, C60_nothing_left, C61_wavenumber_range
* Props_Rerun: C82_narrows, C82_repeat_refuted
* Props_LogGamma: C83_coefficients
* Props_Cli: C85_covariance_order, C86_history, C86_ranges_partial, C86_signals, C86_covariances
* Props_Representation: C88_dictionary, C88_dictionary_faithful, C88_html, C88_html_faithful, C88_columns

## `FunctionalExtensionality.functional_extensionality_dep` (1 theorems)

* Props_Rerun: C82_repeat_partial

## `ClassicalDedekindReals.sig_forall_dec`, `FunctionalExtensionality.functional_extensionality_dep` (23 theorems)

* Props_Tables: C18_divergent, C18_distances
* Props_Numeric: C29_range, C29_refuses, C30_reflexive_partial, C30_reflexive_refuted, C30_symmetric_refuted, C30_symmetric_partial, C30_find, C30_zero_refuted, C30_hidden_refuted
* Props_Fit: C46_fit, C46_bias, C46_near_refuted
* Props_Fft: C65_twofast, C65_twobessel_refuted, C68_bias_exponent
* Props_Multipoles: C70_inside, C70_inside_refuted, C76_inside, C76_largest, C76_average
* Props_Values: C79_redshifts_refuted

## `ClassicalDedekindReals.sig_forall_dec`, `ClassicalDedekindReals.sig_not_dec`, `FunctionalExtensionality.functional_extensionality_dep` (68 theorems)

* Props_Terms: C17_lookups_present, C19_unused_is_irrelevant, C19_all_off_is_zero, C20_contributions_add_up, C21_multipoles_partial, C21_average_multipoles_partial, C21_corrfunc_partial, C21_odd_multipoles_vanish_partial, C21_refuted, C22_local_partial, C22_single_integrated_partial, C22_double_integrated_partial, C22_local_refuted, C22_single_integrated_refuted, C22_double_integrated_refuted
* Props_Near: C21_near_refuted, C87_potentials_refuted
* Props_Nonlinear: C22_local_evolved_partial
* Props_Along: C22_single_evolved_partial, C22_double_evolved_partial
* Props_Threshold: C22_threshold_refuted
* Props_Cov: C23_symmetric_partial, C24_populations_partial, C25_parts, C26_coordinates, C26_more_densities_refuted, C26_no_densities_refuted, C26_average_nonlinear_refuted, C27_own_inputs_partial, C27_later_pixels_ignored_refuted, C28_unbinned, C62_spectrum_of_bin_partial, C62_fftlog_nonlinear_refuted, C62_user_spectrum_nonlinear_refuted
* Props_Bounds: C36_covariance_partial, C36_average_covariance_partial, C36_average_covariance_refuted, C36_python_covariance, C36_python_average_partial
* Props_Numeric: C41_edge_refuted, C41_narrow_range_refuted
* Props_Background: C45_rows, C45_today, C45_populations, C45_g_functions, C45_defined_refuted
* Props_Fit: C46_redshift_refuted
* Props_Gauss: C63_bin, C63_poisson, C63_average_bin, C64_exchange_partial
* Props_Multipoles: C69_projection_partial, C69_sum_of_multipoles, C69_output_irrelevant, C70_average_partial, C71_linear_theory_partial, C71_kaiser, C71_doppler_refuted
* Props_Lensing: C70_projection
* Props_Evolved: C73_nonlinear_refuted, C80_same_partial, C80_potentials_refuted, C80_coincident_refuted
* Props_Options: C74_lensing_refuted
* Props_Meet: C87_single, C87_double_partial, C87_len_len_refuted, C87_nonlinear_refuted

## `ClassicalDedekindReals.sig_forall_dec`, `ClassicalDedekindReals.sig_not_dec`, `Classical_Prop.classic`, `FunctionalExtensionality.functional_extensionality_dep` (96 theorems)

* Props_Rounding: C08_sum, C09_sum_partial, C29_binary64, C39_separations_partial, C85_redshifts, C89_room_partial
* Props_Tables: C18_tables_partial, C18_narrow_refuted
* Props_Fft2: C23_fftlog_refuted, C42_two_sph_partial, C42_few_samples_refuted, C42_odd_exits_refuted, C66_two_sph_linear, C67_two_sph_units
* Props_Cov: C24_same_densities_refuted, C28_binned_partial, C28_order_7_refuted
* Props_Numeric: C31_value, C41_window_partial, C43_extrapolation_partial, C43_samples_kept, C43_zero_sample_refuted, C43_short_table_refuted
* Props_Fft: C42_twofast_partial, C42_narrow_exits_refuted, C66_linear, C67_units, C68_twofast_formula
* Props_Quad: C44_inside, C44_homogeneous, C44_antisymmetric, C44_reversed, C44_unit_interval, C44_nonnegative, C44_bounded, C44_cubic, C44_homogeneous_refuted, C44_early_stop_refuted
* Props_Background: C45_conformal_prime, C45_distance, C45_inverse_defined, C45_dark_energy, C45_growth_equation, C45_growth_rate, C45_jacobian_rest, C45_jacobian_refuted
* Props_Gauss: C63_gaussian_partial, C63_average_volume_refuted, C64_dipole_refuted
* Props_Lensing: C81_projection, C70_flat_average, C81_nonlinear_density_refuted, C81_nonlinear_lensing_refuted
* Props_Nonlinear: C72_limit
* Props_Limit: C72_limit_partial
* Props_Options: C73_bias_partial, C73_rate_partial, C73_bias_growth_partial, C73_rate_growth_partial, C73_two_populations_refuted, C73_full_sky_refuted
* Props_Kernels: C75_local_partial, C75_single_integrated_partial, C75_double_integrated_partial, C75_waves, C75_doppler_difference, C75_doppler_refuted
* Props_Field: C75_local_evolved_partial, C75_single_evolved_partial, C75_double_evolved_partial
* Props_Values: C77_values, C77_flat, C78_divergent, C78_renormalisation, C78_tables, C78_coincidence_refuted, C79_evolved, C79_same, C79_flat_refuted
* Props_LogGamma: C83_defined, C83_reflection, C83_conjugate, C83_positive, C83_kernel, C83_same_kernel, C83_hermitian, C83_transforms, C83_tables, C83_everywhere_refuted
* Props_Positive: C84_positive_partial, C84_correlation_partial
* Props_Cli: C85_tool, C85_one_ending, C85_all_or_nothing, C85_survives
* Props_Meet: C87_threshold_refuted
