c("C01","partial","C01_corrfunc_coherent_partial C01_C03_configure_then_compute C01_C03_free_changes C01_C03_recompute C01_corrfunc_coherent_refuted C01_C03_exceptions_needed","Full statement signal_coherent SCorr is refuted; proved for every history that avoids the listed operations, each of which is shown necessary.")
c("C02","partial","C02_multipoles_coherent_partial C01_C03_configure_then_compute C01_C03_free_changes C01_C03_recompute C02_multipoles_coherent_refuted C01_C03_exceptions_needed","As C01, for multipoles.")
c("C03","partial","C03_average_multipoles_coherent_partial C01_C03_configure_then_compute C01_C03_free_changes C01_C03_recompute C03_average_multipoles_coherent_refuted C01_C03_exceptions_needed","As C01; sep, z_min, z_max and biases do not drop the averaged multipoles.")
c("C04","partial","C04_covariance_coherent_partial C04_C05_configure_then_compute C04_C05_free_changes C04_C05_recompute C04_covariance_coherent_refuted C04_C05_exceptions_needed","Full statement refuted (sep, galaxy biases); proved for every history avoiding the listed operations.")
c("C05","partial","C05_average_covariance_coherent_partial C04_C05_configure_then_compute C04_C05_free_changes C04_C05_recompute C05_average_covariance_coherent_refuted C04_C05_exceptions_needed","As C04.")
c("C06","partial","C06_rejected_assignment_partial C06_rejected_assignment_refuted C06_m_ncdm_refuted C06_empty_spectrum_refuted","Holds for every setter except m_ncdm with h = 0 and an empty spectrum; both exceptions are witnessed.")
c("C07","partial","C07_ranges_partial C07_lists C07_ranges_refuted C07_derived_out_of_range","Holds up to NaN for every directly assigned value; NaN, derived densities and the k range escape.")
c("C08","proved","C08_energy_budget C08_sum","Exact in binary64; the freshly constructed object has the same budget with a different rounding. As real numbers the three densities add up to 1 within 2^-51 while the two stored ones are in [0, 1].")
c("C09","partial","C09_matter_budget_partial C09_sum_partial C09_unassigned_partial C09_restored_partial C09_matter_budget_refuted C09_neutrinos_stale_after_h","Refuted with massive neutrinos: assigning omega_cdm leaves them out. Proved to the last bit for every history that does not assign it, and after every later change of another matter density; as real numbers, after every history, the sum holds within 2^-51 or misses exactly the neutrinos, and always holds without massive neutrinos.")
c("C10","partial","C10_set_parameters_partial C10_set_parameters_refuted","Exact behaviour proved; all-or-nothing is refuted.")
c("C11","partial","C11_read_parameters_partial C11_read_parameters_refuted C11_reading_changes_results","Reading reassigns every attribute: values stay, caches and a supplied spectrum are lost, and it can raise.")
c("C50","proved","C50_option_round_trip C50_option_rejected","")
c("C51","partial","C51_read_back_partial C51_read_back_refuted C51_truncated_refuted","Refuted for values np.allclose does not tell from the old one and for floats stored in integer fields (truncated).")
c("C52","partial","C52_user_spectrum_partial C52_user_spectrum_refuted C52_lost_by","")
c("C54","partial","C54_computing_keeps_parameters_partial C54_computing_keeps_parameters_refuted","k_min and k_max change.")
c("C56","partial","C56_spectrum_range_partial C56_spectrum_range_refuted C56_spectrum_range_after_computing","")
c("C57","partial","C59_no_call_crashes_refuted C57_C59_crashes","Refuted: tables with fewer than five nodes.")
c("C58","proved","C58_background_coherent C58_maximum_separation_coherent","")
c("C59","partial","C59_fresh_no_crash_partial C59_no_call_crashes_refuted C57_C59_crashes","")
c("C14","partial","C14_corrfunc C14_multipoles C14_average_multipoles C14_position C14_average_multipoles_refuted","Proved for all three drivers and all coordinate lists; the averaged multipoles need as many z_max as z_min (refuted otherwise: out-of-bounds read).")
c("C15","partial","C15_schedule_independent_partial C15_parallel_loop C15_no_race_on_records C15_shared_lookup_refuted","Every distribution and interleaving gives the sequential result when the integrand is a function of its arguments; the integrand's spline look-ups share a position cache between threads, for which the claim is refuted.")
c("C16","partial","C16_lookup_sequential_partial C16_interval_unique C16_lookup_in_bounds C16_lookup_refuted","Right for one thread after any history; with several threads only in bounds, not right.")
c("C49","partial","C49_corrfunc C49_multipoles C49_point_matches_bulk_partial","The drivers give every bulk entry the single-point value, given the same tables; that both see the same tables is proved on every history covered by C01/C02.")
c("C17","proved","C17_lookups_present","For tables built by the key construction of coffe_integrals_init (linear spectrum; presence, not contents).")
c("C19","proved","C19_unused_is_irrelevant C19_all_off_is_zero","")
c("C20","proved","C20_contributions_add_up","For every set, every output kind and every linear quadrature, with the table and divergent switch the program builds for each set.")
c("C21","partial","C21_multipoles_partial C21_average_multipoles_partial C21_corrfunc_partial C21_odd_multipoles_vanish_partial C21_refuted C21_near_refuted","Refuted for the Doppler-lensing pair (wrong population's factors in the second half), and for two integrated potential terms g4, g5 correlated with each other (or one with itself) at points closer than 1e-6, whose correlation is taken at the first point. Proved for every set and option without such pairs.")
c("C22","partial","C22_local_partial C22_single_integrated_partial C22_double_integrated_partial C22_local_evolved_partial C22_single_evolved_partial C22_double_evolved_partial C22_local_refuted C22_single_integrated_refuted C22_double_integrated_refuted C22_threshold_refuted","Refuted for 12 of the 55 pairs: d1 with d2,g1..g5,len; g1,g2,g3 with len; den-g5; g5-len. Proved for every set without such a pair, linear spectrum, full sky, away from coinciding points, for all cosines; with rsd and len together only |mu| < 0.999 or |mu| = 1, and refuted at every cosine in between (F19). With a nonlinear spectrum proved for the local terms of density, distortions and Doppler, and for lensing with density, distortions and itself (spectrum at the mean redshift of the two points correlated).")
c("C32","partial","C32_one_column_partial C32_two_columns_partial C32_columns_partial C32_wide_table_refuted C32_header_without_newline_refuted C32_write_ncol_refuted","Round trip for every table whose rows fit the 256-byte line buffer and headers made of terminated comment lines; refuted otherwise, and write_ncol reads outside its arrays when there are more rows than columns.")
c("C33","partial","C33_read_1col_partial C33_read_2col_partial C33_read_ncol_partial C33_columns C33_unterminated_line_lost C33_no_final_newline_refuted C33_long_line_refuted C33_long_comment_refuted C33_byte_255_refuted C33_blank_line_refuted","Holds for text files with a final newline and lines under 255 bytes; refuted for the rest.")
c("C34","partial","C34_write_matrix_partial C34_write_matrix_refuted","Refuted: the last column is never written; the exact output is proved.")
c("C40","partial","C40_background_partial C40_unknown_name_refuted C40_twenty_columns_refuted C40_many_columns_refuted C40_long_header_refuted","Proved for fewer than twenty known names with a header below 256 bytes; refuted otherwise.")
c("C60","proved","C60_reset C60_reset_succeeds C60_nothing_left","For every state; what the initial sweep over the parameters changes is C11.")
c("C61","proved","C61_wavenumber_range","")
c("C29","partial","C29_range C29_refuses C29_binary64 C29_binary64_refuted","Holds for the formula over the reals. With binary64 rounding neighbouring values may coincide and the last may equal the upper bound (refuted); proved for doubles: first value exact, nondecreasing, within the bounds, error at most 2^-50 of the larger bound, strictly increasing when the spacing exceeds 2^-49 of it (bounds up to 2^970, at most 2^50 values).")
c("C30","partial","C30_reflexive_partial C30_reflexive_refuted C30_symmetric_refuted C30_symmetric_partial C30_find C30_zero_refuted C30_hidden_refuted","The look-up returns the first entry that agrees and aborts if none does; approximate equality is neither reflexive at 0 nor symmetric, so entries at redshift 0 cannot be found.")
c("C31","proved","C31_symmetries C31_value C31_sign C31_kronecker","Symmetries for all orders; value as an integral for all orders the interface accepts. 3j symbols by Racah's closed form, exact arithmetic.")
c("C41","partial","C41_window_partial C41_edge_refuted C41_narrow_range_refuted","Holds away from the two inner edges, where an unassigned variable is returned; a wavenumber range narrower than e^0.92 ends the process.")
c("C43","partial","C43_extrapolation_partial C43_samples_kept C43_zero_sample_refuted C43_short_table_refuted","One-dimensional routine, positive end samples; a zero next to a positive sample gives a non-finite continuation; under two samples is out of bounds. The two-dimensional routines are not modelled (nothing calls them).")
c("C47","partial","C47_copy C47_unknown_type_refuted","Rows and columns are copied exactly and bad indices abort; an unknown type word is silently accepted.")
c("C48","partial","C48_elementwise C48_null C48_max C48_max_empty C48_max_nan_refuted","Holds for all arrays, also when they alias; with a NaN first the maximum is NaN.")
c("C23","partial","C23_symmetric_partial C23_fftlog_refuted","All inputs with the lengths the interface insists on; for the FFTlog method under the hypothesis that the two-dimensional transform is symmetric in its two arguments, which is refuted: with 8 samples of a positive spectrum the window drops one frequency of the first argument only.")
c("C24","partial","C24_populations_partial C24_same_densities_refuted","Holds when the two densities given are those of the populations numbered 1 and 2; refuted if the densities stay while the populations are exchanged. FFTlog: as for C23.")
c("C25","proved","C25_parts","Every subset of the three parts.")
c("C26","partial","C26_coordinates C26_more_densities_refuted C26_no_densities_refuted C26_average_nonlinear_refuted","Holds for the lengths the Python layer insists on. The C program does not compare lengths: more densities than redshifts reads out of bounds, fewer leaves elements without value; the averaged covariance with a nonlinear spectrum reads out of bounds when there are fewer z_mean than bins, which Python allows.")
c("C27","partial","C27_own_inputs_partial C27_later_pixels_ignored_refuted","Each element equals that of a run given only its own redshift's inputs and data points, unless bins are on with a linear spectrum: then the first pixel size is used for every redshift.")
c("C28","partial","C28_binned_partial C28_unbinned C28_order_7_refuted","Orders 0 to 6 equal the volume-weighted mean of the Bessel function over the shell; order 7 and up, accepted by the interface, give zero.")
c("C62","partial","C62_spectrum_of_bin_partial C62_fftlog_nonlinear_refuted C62_user_spectrum_nonlinear_refuted","Standard integration with a linear spectrum or CLASS's nonlinear one; refuted for FFTlog with a nonlinear type and for a nonlinear type with a user's spectrum.")
c("C63","partial","C63_gaussian_partial C63_bin C63_poisson C63_average_bin C63_average_volume_refuted","Mixed and cosmic parts with the standard integration and multipoles up to 10; shot noise and volume for all. FFTlog is outside. The averaged covariance divides by a quantity that is not the volume of the bin (refuted): it grows as the bin shrinks.")
c("C64","partial","C64_exchange_partial C64_dipole_refuted","Even multipoles, and all multipoles for shot noise alone; refuted for odd ones: the dipole of one population with itself has non-zero cosmic variance.")
c("C42","partial","C42_twofast_partial C42_two_sph_partial C42_no_samples_refuted C42_narrow_exits_refuted C42_few_samples_refuted C42_two_samples_refuted C42_no_sample_refuted C42_odd_exits_refuted","All accesses inside, grids increasing, every value a number, for a wide enough range of wavenumbers (one-dimensional) and even sizes of at least 8 (two-dimensional). Other sizes, which the interface accepts, read out of bounds, give no number or end the process.")
c("C65","partial","C65_twofast C65_twobessel_refuted","Holds in twofast.c; refuted for twobessel.c, whose C++ branch multiplies real and imaginary parts separately.")
c("C66","proved","C66_linear C66_two_sph_linear","For the sizes and ranges for which the transform is defined (C42).")
c("C67","proved","C67_units C67_two_sph_units","For the sizes and ranges for which the transform is defined (C42).")
c("C68","proved","C68_twofast_formula C68_bias_exponent","The kernel (twofast_mql) and the spline are parameters.")
c("C13","partial","C13_order_partial C13_one_coupled C13_raises_refuted C13_neutrinos_refuted","False in general: one order can raise where another loads, and omega_nu depends on the order of h and m_ncdm. Proved: successful loads agree unless both h and m_ncdm change; with at most one of the five coupled quantities in the file, success and result do not depend on the order.")
c("C12","partial","C12_round_trip_partial C12_tables C12_loads_partial C12_lost C12_has_g2_refuted C12_empty_refuted C12_omega_cdm_refuted","False in general: six attributes are never read back, empty lists do not load, omega_cdm with massive neutrinos changes, numbers close to the default are replaced by it, biases are resampled. Proved: exactly what does come back, for every order, and when the file loads.")

c("C44","partial","C44_inside C44_homogeneous C44_antisymmetric C44_reversed C44_unit_interval C44_nonnegative C44_bounded C44_cubic C44_homogeneous_refuted C44_early_stop_refuted C44_inside_doubles_refuted","Over the reals and for every integrand, interval and tolerance: the integrand is evaluated only strictly inside, at most 385 times, antisymmetric integrands give 0, non-negative integrands a non-negative number, and cubics are integrated to 1e-10. Homogeneity is proved for the library's calls (tolerance 0) and refuted for a positive tolerance. In doubles the upper limit can be evaluated (0.999 to 1): C44_inside_doubles_refuted. A continuous integrand positive outside 25 points can give exactly 0: C44_early_stop_refuted.")

c("C45","proved","C45_rows C45_today C45_conformal_prime C45_distance C45_inverse_defined C45_dark_energy C45_growth_equation C45_growth_rate C45_populations C45_g_functions C45_jacobian_rest C45_defined_refuted C45_jacobian_refuted","For every cosmology, table size and quadrature routine. Identities that involve integrals assume an exact quadrature; the ODE integrator is a parameter. Refuted side claims: fewer than five bins (accepted by the interface) is undefined behaviour with the default interpolation, and the Jacobian handed to the ODE solver has one wrong entry (not used by the method selected).")

c("C46","proved","C46_fit C46_bias C46_redshift_refuted C46_no_separations_refuted C46_near_refuted","For every least-squares solver. The polynomial is in the comoving distance from the middle of the redshift range; biases polynomial in redshift are not reproduced (refuted). Without separations the routine reads out of bounds, and mean redshifts nearer than the largest separation get NaN coefficients.")

c("C53","partial","C53_in_bounds C53_complete_partial C53_values C53_fields C53_complete_refuted","Every slot that is reached has a distinct name and the right value, but 3 or 4 of the 35 slots are never written, and the value of 'non linear' is not written for linear spectra.")
c("C55","partial","C55_A_s C55_last_amplitude_partial C55_last_amplitude_refuted C55_small_A_s_refuted","A_s wins over a sigma8 assigned later, and an A_s of at most 1e-10 is ignored.")

c("C18","partial","C18_tables_partial C18_narrow_refuted C18_no_samples_refuted C18_divergent C18_distances","For at least 5 samples and k_max/k_min wider than e^0.92 at the sampling; narrower ranges end the process. Also what each position of the table holds.")

c("C38","partial","C38_scalars C38_optional C38_lists C38_derivatives_partial C38_window C38_lengths C38_amplitude C38_spectrum C38_biases C38_contributions C38_densities C38_derivatives_refuted C38_pixelsize_refuted C38_missing_text_refuted C38_missing_list_refuted","The derivative options are only checked through their sum, the pixel sizes are not compared for the averaged covariance, a missing text setting is undefined behaviour and a missing list gives the default. Everything else an accepted file asks for is stored.")
c("C39","partial","C39_sampling_partial C39_separations_partial C39_step_refuted C39_average_covariance_refuted","By sampling, for output types other than 5; a step is read but never used, so the list of separations is empty.")
c("C37","partial","C37_modules C37_result_partial C37_only C37_information C37_usage C37_completes C37_average_refuted C37_rerun_refuted","The modules for every type; the file for types 1, 2, 4 and 5 with file names below 256 bytes. The averaged multipoles are computed and written nowhere, and a second run appends to the file of the first.")
c("C36","partial","C36_correlation C36_multipoles C36_average_partial C36_average_refuted C36_distance C36_distance_refuted C36_covariance_partial C36_average_covariance_partial C36_average_covariance_refuted C36_python_covariance C36_python_average_partial","Safe for the correlation function, its multipoles and their covariance. Accepted configurations that read out of bounds: z_max shorter than z_min, one bin width (the default) with two redshifts and a divergent integral, one pixel size (the default) with two bins of the averaged covariance.")
c("C35","partial","C35_safe C35_free_twice C35_owned C35_returns_partial C35_returns_refuted C35_not_all_returned","Ownership model of every allocation of the library, the Python class and the settings parser: no history double-frees or uses a freed block (all histories). Returning every block is proved for the histories without the leaking operations and refuted in general: bias assignment, a second CLASS run, empty lists, the flat-sky bias fits, nonlinear integrals and the settings parser leak. Not modelled: the contents of blocks, and what CLASS and GSL allocate inside their own structures.")

c("C69","partial","C69_projection_partial C69_sum_of_multipoles C69_output_irrelevant","Every full-sky configuration, with quadratures that return the integral and integrands for which iterated integrals exist (a hypothesis, met by every continuous integrand); for the flat-sky lensing formulas the projection is not proved.")
c("C70","partial","C70_average_partial C70_inside C70_inside_refuted","Same hypotheses as C69. Above the maximum separation the code averages over pairs outside the bin.")
c("C71","partial","C71_linear_theory_partial C71_kaiser C71_doppler_refuted","Every pair of density, distortion and Doppler but Doppler with itself, whose quadrupole has the opposite sign in the code.")
c("C73","partial","C73_bias_partial C73_rate_partial C73_bias_growth_partial C73_rate_growth_partial C73_two_populations_refuted C73_full_sky_refuted","Densities and distortions of one population in the flat sky. False for two populations and outside the flat sky.")
c("C74","partial","C74_lensing_refuted","Refuted: with the flat-sky options of the integrated terms the Python object leaves lensing out of the correlation function and the averaged multipoles.")
c("C75","partial","C75_local_partial C75_single_integrated_partial C75_double_integrated_partial C75_local_evolved_partial C75_single_evolved_partial C75_double_evolved_partial C75_waves C75_doppler_difference C75_doppler_refuted","Every pair but those of the findings F1-F5 and Doppler with itself (F13), whose difference is computed. Pairs off the axis, |mu| < 0.999 for rsd with len. The tables are those of any superposition of waves (C75_waves). With a nonlinear spectrum the same for density, distortions, Doppler and lensing, with the potential at the mean redshift of the two points.")
c("C76","proved","C76_inside C76_largest C76_average","For increasing distances.")
c("C72","proved","C72_limit C72_limit_partial","Every spectrum, cosine and set of the three contributions, derivative options off. Also Doppler with itself: both branches have the sign of F13.")
c("C36","partial","C36_correlation C36_multipoles C36_average_partial C36_average_refuted C36_distance C36_farthest C36_distance_refuted C36_covariance_partial C36_average_covariance_partial C36_average_covariance_refuted C36_python_covariance C36_python_average_partial","Safe for the correlation function, its multipoles and their covariance; the largest distance of the tables is the largest of the run. Accepted configurations that read out of bounds: z_max shorter than z_min, one bin width (the default) with two redshifts and a divergent integral, one pixel size (the default) with two bins of the averaged covariance.")
c("C37","partial","C37_modules C37_threads C37_result_partial C37_only C37_information C37_usage C37_completes C37_average_refuted C37_rerun_refuted","The modules for every type, the number of threads, and the file for types 1, 2, 4 and 5 with file names below 256 bytes. The averaged multipoles are computed and written nowhere, and a second run appends to the file of the first.")
c("C38","partial","C38_scalars C38_optional C38_methods C38_lists C38_derivatives_partial C38_window C38_lengths C38_amplitude C38_spectrum C38_biases C38_contributions C38_densities C38_derivatives_refuted C38_pixelsize_refuted C38_missing_text_refuted C38_missing_list_refuted","The derivative options are only checked through their sum, the pixel sizes are not compared for the averaged covariance, a missing text setting is undefined behaviour and a missing list gives the default. Everything else an accepted file asks for is stored.")
c("C77","proved","C77_values C77_flat","With exact quadrature, Bessel and Gamma functions and a continuous spectrum, for the samplings and ranges of C18. Above 1 Mpc the entries are those of the FFTLog transform (C41, C65-C68).")
c("C78","partial","C78_divergent C78_renormalisation C78_tables C78_coincidence_refuted","The values apart are the integral and its renormalisation. The table for coinciding points holds the fourth power of the distance times the limit.")
c("C79","partial","C79_evolved C79_same C79_flat_refuted C79_redshifts_refuted","Entry by entry for every order. The flat-sky density-lensing table misses the factor 2 pi^2 sqrt(2/pi) its linear form has, and redshifts above 2.97 are outside every table.")
c("C80","partial","C80_same_partial C80_potentials_refuted C80_coincident_refuted","Every set of contributions and every option but the derivatives, for quadratures that stay inside the cube and, for lensing with itself, away from coinciding points. The local potential terms have no growth factor with the nonlinear spectrum, and at coinciding points the two formulas for lensing with itself differ.")
c("C73","partial","C73_bias_partial C73_rate_partial C73_bias_growth_partial C73_rate_growth_partial C73_two_populations_refuted C73_full_sky_refuted C73_nonlinear_refuted","Densities and distortions of one population in the flat sky with the linear spectrum. False for two populations and outside the flat sky; with a nonlinear spectrum the options change nothing.")
c("C69","partial","C69_projection_partial C69_sum_of_multipoles C69_output_irrelevant C81_projection","Every configuration, with quadratures that return the integral and integrands for which iterated integrals exist (a hypothesis, met by every continuous integrand). The flat-sky lensing formulas are covered by C81, for the linear spectrum.")
c("C81","partial","C81_projection C81_nonlinear_density_refuted C81_nonlinear_lensing_refuted","Every configuration with the linear spectrum whose tables hold the integrals of C77 exactly, with quadratures that return the integral. False for nonlinear spectra: the density-lensing multipoles are 2 pi^2 sqrt(2/pi) times the projections, and the lensing-lensing correlation function keeps the linear spectrum.")
c("C70","partial","C70_average_partial C70_projection C70_flat_average C70_inside C70_inside_refuted","Same hypotheses as C69; with the flat-sky lensing options, those of C81. Above the maximum separation the code averages over pairs outside the bin.")
c("C82","partial","C82_repeat_partial C82_narrows C82_repeat_refuted","Holds whenever CLASS covers the wavenumbers asked for. False for a CLASS that ends its table at the wavenumber asked for: k_max is sent in h/Mpc and read back in 1/Mpc, so each call multiplies it by h.")
c("C59","partial","C59_careful C59_fresh_no_crash_partial C59_no_call_crashes_refuted C57_C59_crashes","False in general: eleven ways of killing the process are shown. Proved for every history of careful calls, that is: five or more nodes and background points, bin widths for every redshift with potential terms, upper ends for every bin, bins up to redshift 15, a user's spectrum only with the linear type, wavenumbers inside the table, and with flat-sky lensing the multipoles announced before the tables are made.")
c("C52","partial","C52_user_spectrum_partial C52_user_spectrum_refuted C52_lost_by","Holds until an assignment or a recomputation that runs CLASS; those that lose the spectrum are listed.")
c("C56","partial","C56_spectrum_range_partial C56_spectrum_range_refuted C56_spectrum_range_after_computing","Holds when the table of CLASS covers the range; the range is checked before CLASS narrows it.")
c("C83","proved","C83_defined C83_reflection C83_conjugate C83_positive C83_kernel C83_same_kernel C83_hermitian C83_transforms C83_tables C83_everywhere_refuted C83_coefficients","Over the reals (no overflow). The reflection formula excludes the line Re z = 1/2, where both sides come from the direct branch. Outside the orders and biases the program chooses the kernel can meet a pole (C83_everywhere_refuted).")
c("C84","partial","C84_positive_partial C84_correlation_partial","For the standard integration with a rule that is linear and positive (a fixed set of nodes with positive weights; the adaptive rule is so up to its error), over the reals. The 2D FFTlog integration is not covered.")
c("C85","proved","C85_tool C85_one_ending C85_all_or_nothing C85_survives C85_covariance_order C85_redshifts","The methods' results are parameters; the array sizes must fit into the address space (fits). Argument parsing, unreadable settings and unwritable output files are outside the model; numpy's savetxt is modelled by its documented behaviour.")
c("C86","partial","C86_history C86_ranges_partial C86_signals C86_covariances","The ranges exclude NaN, as in C07.")
c("C87","partial","C87_single C87_double_partial C87_len_len_refuted C87_potentials_refuted C87_nonlinear_refuted C87_threshold_refuted","All terms with one line of sight are continuous for a linear spectrum (redshift-space distortions with lensing except at |mu| = 0.999, where the code changes the formula and the integrand jumps); with two lines of sight only lensing with one integrated potential. Lensing with itself jumps (F8), the integrated potentials correlated with each other jump at 1e-6 (F20), and so does density with lensing for nonlinear spectra (F10). The hypothesis on the renormalized divergent integral is not met by the tables the code builds (F14); it is only used when the divergent terms are switched on.")
c("C88","proved","C88_dictionary C88_dictionary_faithful C88_html C88_html_faithful C88_columns","The text Python gives a number is a parameter; two results with the same table need texts free of <. The body of the table has no row element, as in the code.")
c("C89","partial","C89_room_partial C89_negative_refuted C89_rounding_refuted","Refuted: m_ncdm = -50 is accepted, makes the neutrino density negative and lets omega_cdm = 1.5 through, with a dark energy density below -1/2; without neutrinos an omega_m one double above 1 - omega_gamma is accepted too. Proved for every history that never assigns m_ncdm: matter and radiation exceed 1 by at most 2^-51 and the dark energy density is at least -2^-50, while the two stored densities are in [0, 1].")
