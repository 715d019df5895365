{"id": "C01", "title": "compute_corrfunc_bulk never returns stale values", "statement": "After any sequence of attribute assignments and compute_* calls on one Coffe object, compute_corrfunc_bulk() returns what a fresh object holding the same parameter values would return.", "quantifier": "every finite history of setter, spectrum-setting, getter and compute operations with arbitrary values", "why_tests_cant": "The set of histories is infinite; a unit test exercises a handful of setter/compute interleavings and misses the pairs whose setter forgets to drop a cache.", "anchors": ["python/coffe/coffe.pyx: Coffe._free_*, property setters, compute_corrfunc_bulk", "src/corrfunc.c: coffe_corrfunc_init", "src/integrals.c: coffe_integrals_init", "src/background.c: coffe_background_init"]}
{"id": "C02", "title": "compute_multipoles_bulk never returns stale values", "statement": "After any sequence of attribute assignments and compute_* calls on one Coffe object, compute_multipoles_bulk() returns what a fresh object holding the same parameter values would return.", "quantifier": "every finite history of setter, spectrum-setting, getter and compute operations with arbitrary values", "why_tests_cant": "Same as C01: unbounded histories.", "anchors": ["python/coffe/coffe.pyx: property setters, compute_multipoles_bulk", "src/multipoles.c: coffe_multipoles_init", "src/integrals.c: coffe_integrals_init"]}
{"id": "C03", "title": "compute_average_multipoles_bulk never returns stale values", "statement": "After any sequence of attribute assignments and compute_* calls, compute_average_multipoles_bulk() returns what a fresh object holding the same parameter values would return.", "quantifier": "every finite history of setter, spectrum-setting, getter and compute operations with arbitrary values", "why_tests_cant": "Unbounded histories.", "anchors": ["python/coffe/coffe.pyx: sep, z_min, z_max, bias setters, compute_average_multipoles_bulk", "src/average_multipoles.c: coffe_average_multipoles_init"]}
{"id": "C04", "title": "compute_covariance_bulk never returns stale values", "statement": "After any sequence of attribute assignments and compute_* calls, compute_covariance_bulk() returns what a fresh object holding the same parameter values would return.", "quantifier": "every finite history of setter, spectrum-setting, getter and compute operations with arbitrary values", "why_tests_cant": "Unbounded histories.", "anchors": ["python/coffe/coffe.pyx: sep, bias setters, compute_covariance_bulk", "src/covariance.c: coffe_covariance_init"]}
{"id": "C05", "title": "compute_average_covariance_bulk never returns stale values", "statement": "After any sequence of attribute assignments and compute_* calls, compute_average_covariance_bulk() returns what a fresh object holding the same parameter values would return.", "quantifier": "every finite history of setter, spectrum-setting, getter and compute operations with arbitrary values", "why_tests_cant": "Unbounded histories.", "anchors": ["python/coffe/coffe.pyx: sep, deltaz, compute_average_covariance_bulk", "src/covariance.c: coffe_covariance_init, coffe_average_covariance_free"]}
{"id": "C06", "title": "A rejected assignment changes nothing", "statement": "If assigning a parameter raises, every parameter and every cached result of the object is the same as before the assignment.", "quantifier": "every object state, every parameter, every value offered (including NaN and infinities)", "why_tests_cant": "The value space and state space are infinite; tests check that some values raise, not that nothing else changed.", "anchors": ["python/coffe/coffe.pyx: _check_parameter, property setters"]}
{"id": "C07", "title": "Stored parameters are always inside their documented ranges", "statement": "After any sequence of assignments every stored numeric parameter lies in the range its setter documents.", "quantifier": "every finite history of assignments with arbitrary IEEE doubles", "why_tests_cant": "Range checks written with comparisons behave differently for NaN; only a quantification over all doubles covers that.", "anchors": ["python/coffe/coffe.pyx: _check_parameter, _check_omegas, sep, mu, fsky, pixelsize, deltaz, number_density1 setters"]}
{"id": "C08", "title": "The energy budget closes", "statement": "After any history the stored dark-energy density is 1 - omega_m - omega_gamma of the values currently stored.", "quantifier": "every finite history of operations and all float values", "why_tests_cant": "A dropped rebalancing call in one setter shows only after that setter, in any order with others.", "anchors": ["python/coffe/coffe.pyx: _balance_content, omega_* and m_ncdm setters", "src/parser.c: coffe_parse_default_parameters"]}
{"id": "C09", "title": "The matter budget is consistent", "statement": "After any history the stored matter density is the sum of cold dark matter, baryon and neutrino densities.", "quantifier": "every finite history of density assignments", "why_tests_cant": "Depends on the order in which densities, h and neutrino masses are assigned.", "anchors": ["python/coffe/coffe.pyx: omega_cdm, omega_m, omega_baryon, m_ncdm, h setters"]}
{"id": "C10", "title": "set_parameters applies all or nothing", "statement": "set_parameters(d) either applies every entry of d or raises and leaves the object unchanged; when every entry is accepted the result equals assigning them one after the other.", "quantifier": "every dictionary and every object state", "why_tests_cant": "All dictionaries, including those whose k-th entry is invalid for any k.", "anchors": ["python/coffe/coffe.pyx: Coffe.set_parameters"]}
{"id": "C11", "title": "Reading parameters has no effect on the object", "statement": "Reading the parameters property (or any single attribute) does not change parameters and does not drop cached results.", "quantifier": "every object state", "why_tests_cant": "The effect is invisible to value-based tests: only recomputation time changes, or user-supplied spectra are lost.", "anchors": ["python/coffe/coffe.pyx: Coffe.parameters, _free_except_parameters"]}
{"id": "C12", "title": "to_file followed by from_file restores the configuration", "statement": "Writing the configuration with to_file and loading it with from_file yields an object with the same parameter values.", "quantifier": "every reachable parameter state", "why_tests_cant": "Only the default configuration is round-tripped in the test suite.", "anchors": ["python/coffe/coffe.pyx: Coffe.to_file, Coffe.from_file", "python/coffe/representation.py"]}
{"id": "C13", "title": "from_file does not depend on the order in which options are applied", "statement": "Loading one configuration file gives the same object whichever order its options are visited in.", "quantifier": "every order of the options of one file", "why_tests_cant": "The code iterates over Python sets whose order changes with the hash seed; one run sees one order.", "anchors": ["python/coffe/coffe.pyx: Coffe.from_file"]}
{"id": "C14", "title": "Bulk signals are the cartesian product of the requested coordinates, in order", "statement": "The arrays returned by the three bulk signal computations contain exactly one entry per (redshift, angle or multipole, separation) triple, ordered with redshift outermost and separation innermost, and the value stored with a coordinate is the value of that coordinate.", "quantifier": "all lists of redshifts, angles or multipoles and separations, of any length", "why_tests_cant": "Index arithmetic errors depend on the relative lengths of the three lists.", "anchors": ["src/corrfunc.c: coffe_corrfunc_init", "src/multipoles.c: coffe_multipoles_init", "src/average_multipoles.c: coffe_average_multipoles_init"]}
{"id": "C15", "title": "Bulk values do not depend on thread count or schedule", "statement": "For every number of threads and every interleaving of the worker threads the value array produced by a bulk computation is the same as the one produced by one thread.", "quantifier": "every assignment of iterations to threads and every interleaving of their memory accesses", "why_tests_cant": "A test run observes one schedule.", "anchors": ["src/corrfunc.c: omp parallel for loops", "src/multipoles.c", "src/average_multipoles.c", "src/common.c: coffe_interp_spline"]}
{"id": "C16", "title": "A spline lookup returns the interval that contains the abscissa", "statement": "Interpolating a tabulated function at x uses the table interval that contains x, whatever was looked up before and whatever other threads look up at the same time.", "quantifier": "every table, abscissa, lookup history and thread interleaving", "why_tests_cant": "The lookup accelerator is shared mutable state: the failing interleavings are rare and not reproducible.", "anchors": ["src/common.c: coffe_interp_spline, coffe_init_spline"]}
{"id": "C17", "title": "Every integral a signal needs has been computed", "statement": "When a signal is evaluated with freshly initialised integrals, every Bessel integral it looks up is present in the table, for every combination of contributions, flat-sky options, multipoles and output type.", "quantifier": "every configuration of contribution flags, flat-sky flags, output type and multipole list", "why_tests_cant": "There are more than 2^16 flag combinations and unboundedly many multipole lists; a missing entry is a null dereference.", "anchors": ["src/integrals.c: coffe_integrals_init, coffe_find_integral", "src/functions.c", "src/signal.c: coffe_integrate"]}
{"id": "C18", "title": "Integral tables have strictly increasing abscissae starting at zero separation", "statement": "The separation grid on which each regularised integral is tabulated starts at 0 and is strictly increasing, so that spline construction is always defined.", "quantifier": "every output length, wavenumber range and redshift setup", "why_tests_cant": "Grid sizes are user configurable; splines abort the process on a repeated abscissa.", "anchors": ["src/integrals.c: coffe_integrals_renormalizable, coffe_sep, min_sep", "src/twofast.c: twofast_1bessel"]}
{"id": "C19", "title": "Disabled contributions do not contribute", "statement": "A signal evaluated with a contribution switched off does not depend on any quantity that only that contribution uses; with every contribution off the signal is zero.", "quantifier": "every configuration and every value of background, biases and integrals", "why_tests_cant": "The flags interact pairwise; tests switch on one or two.", "anchors": ["src/signal.c: coffe_integrate", "src/functions.c: functions_nonintegrated, functions_single_integrated, functions_double_integrated"]}
{"id": "C20", "title": "Contributions add up pairwise", "statement": "The signal of a set of contributions is the sum over unordered pairs of contributions in the set of the signal of that pair, and only_cross_correlations removes exactly the equal pairs.", "quantifier": "every subset of the ten contributions and all background values", "why_tests_cant": "2^10 subsets times continuous parameters.", "anchors": ["src/functions.c: functions_nonintegrated, functions_single_integrated, functions_double_integrated"]}
{"id": "C21", "title": "Exchanging the two tracers mirrors the signal", "statement": "Exchanging the two galaxy populations and reversing the sign of mu leaves the correlation function unchanged.", "quantifier": "all redshifts, separations, mu, bias functions and contribution sets", "why_tests_cant": "Symmetry must hold for all arguments; benchmark comparisons use one set of equal biases.", "anchors": ["src/functions.c: functions_nonintegrated, functions_single_integrated, functions_double_integrated"]}
{"id": "C22", "title": "Each contribution enters every pair with the same weight", "statement": "The prefactor a contribution carries does not depend on which other contribution it is correlated with: the signal is a bilinear form in the source terms.", "quantifier": "all contribution pairs and all background values", "why_tests_cant": "Each pair is a separate formula of the source; numerical benchmarks cover a few.", "anchors": ["src/functions.c"]}
{"id": "C23", "title": "The multipole covariance matrix is symmetric", "statement": "cov(l1, r1; l2, r2; z) = cov(l2, r2; l1, r1; z) for every pair of data points.", "quantifier": "all multipole lists, separation lists, redshifts, densities, biases and populations", "why_tests_cant": "Quantifies over all index pairs and all real inputs.", "anchors": ["src/covariance.c: coffe_covariance_init"]}
{"id": "C24", "title": "The covariance respects exchanging the two data vectors' populations", "statement": "Swapping the population pairs (1,2) and (3,4) transposes the covariance.", "quantifier": "all population choices, densities and biases", "why_tests_cant": "Tests use equal populations.", "anchors": ["src/covariance.c: coffe_covariance_init"]}
{"id": "C25", "title": "The covariance is the sum of its enabled parts", "statement": "The covariance is the sum of the cosmic-variance, mixed and Poisson parts; disabling a part removes exactly that part; Poisson noise appears only between equal multipoles and at the same separation.", "quantifier": "all flags, inputs and indices", "why_tests_cant": "Continuous inputs and all index pairs.", "anchors": ["src/covariance.c: coffe_covariance_init"]}
{"id": "C26", "title": "Covariance entries carry their own coordinates", "statement": "Entry number k of the covariance output carries coordinates and value of the same (z, l1, r1, l2, r2) combination; the output contains each combination exactly once.", "quantifier": "all list lengths", "why_tests_cant": "Five nested loops repeated in separate passes.", "anchors": ["src/covariance.c: coffe_covariance_init"]}
{"id": "C27", "title": "Each redshift bin uses its own pixel size", "statement": "The covariance at redshift number k is computed with pixelsize number k.", "quantifier": "all redshift lists and pixel sizes", "why_tests_cant": "The default has one redshift.", "anchors": ["src/covariance.c: coffe_covariance_init"]}
{"id": "C28", "title": "Binned covariance supports every multipole the interface accepts", "statement": "For every multipole order accepted by the l parameter the binned covariance uses the integral of the spherical Bessel function of that order.", "quantifier": "all accepted multipoles", "why_tests_cant": "Tests use 0, 2, 4.", "anchors": ["src/covariance.c: integral_power_spherical_bessel1_unit", "python/coffe/coffe.pyx: l"]}
{"id": "C29", "title": "Generated ranges are half-open, increasing and evenly spaced", "statement": "coffe_generate_range(a, b, n) yields n strictly increasing values starting at a and all below b; it refuses a >= b.", "quantifier": "all real a < b and all n", "why_tests_cant": "All lengths and endpoints.", "anchors": ["src/common.c: coffe_generate_range"]}
{"id": "C30", "title": "Approximate comparison and coordinate lookup are correct", "statement": "Looking up a covariance by coordinates returns the entry whose coordinates match within the tolerance and aborts if there is none; approximate equality is reflexive and symmetric.", "quantifier": "all arrays and all coordinates", "why_tests_cant": "Relative tolerances are asymmetric only for some inputs.", "anchors": ["src/common.c: coffe_approx_equal", "src/covariance.c: coffe_covariance_find"]}
{"id": "C31", "title": "Angular coupling integrals obey their symmetries", "statement": "The integral of four Legendre polynomials is invariant under all permutations the code relies on (n<->m, a<->b, (n,m)<->(a,b)), vanishes for odd total order and is never negative.", "quantifier": "all integer orders", "why_tests_cant": "Unbounded orders.", "anchors": ["src/common.c: coffe_legendre_integral, coffe_sign, coffe_kronecker_delta"]}
{"id": "C32", "title": "Numeric columns survive writing and reading back", "statement": "A file written by the column writers and read by the column readers gives back the same number of rows and columns in the same order, independently of header lines.", "quantifier": "all column contents, lengths and header texts", "why_tests_cant": "All lengths and headers; line-buffer limits matter only for long lines.", "anchors": ["src/common.c: read_1col, read_2col, coffe_read_ncol, write_1col, write_2col, write_ncol, write_ncol_null"]}
{"id": "C33", "title": "Readers use every data line of the file", "statement": "Reading a column file yields one row per non-comment line, whether or not the last line ends in a newline and however long the lines are.", "quantifier": "all byte sequences", "why_tests_cant": "All byte strings, including long lines and missing final newline.", "anchors": ["src/common.c: read_1col, read_2col, coffe_read_ncol"]}
{"id": "C34", "title": "write_matrix writes the whole matrix", "statement": "Every element of the matrix appears in the written file, row by row.", "quantifier": "all matrix sizes", "why_tests_cant": "All sizes.", "anchors": ["src/common.c: write_matrix"]}
{"id": "C35", "title": "Freeing is safe in any order and any number of times", "statement": "No sequence of init, compute, set and free operations frees memory twice or uses memory after it was freed, and freeing everything returns every block.", "quantifier": "every finite history of operations", "why_tests_cant": "Histories are unbounded; sanitizers see one history.", "anchors": ["src/common.c: coffe_parameters_free, coffe_free_spline", "src/background.c: coffe_background_free", "src/integrals.c: coffe_integrals_free", "src/corrfunc.c", "src/covariance.c", "python/coffe/coffe.pyx: set_spline, __dealloc__"]}
{"id": "C36", "title": "All array accesses of a bulk computation are in bounds", "statement": "For every accepted configuration the signal and covariance drivers read and write only inside the arrays they were given.", "quantifier": "every combination of list lengths the interface accepts", "why_tests_cant": "Length mismatches depend on combinations of settings.", "anchors": ["src/average_multipoles.c", "src/integrals.c: chi_max loop", "src/covariance.c: value loop", "src/common.c: write_ncol"]}
{"id": "C37", "title": "The command line driver computes exactly what was asked", "statement": "For every output type the program runs the background and the one module of that type, and writes that module's result file.", "quantifier": "every command line and configuration", "why_tests_cant": "All combinations.", "anchors": ["src/main.c: main", "src/output.c: coffe_output_init"]}
{"id": "C38", "title": "The configuration parser rejects inconsistent settings", "statement": "The parser aborts unless at most one derivative option is set, window size is in range, density lists match redshift lists and at most one amplitude parameter is set; otherwise the stored configuration is the requested one.", "quantifier": "every configuration file content", "why_tests_cant": "All files.", "anchors": ["src/parser.c: coffe_parser_init"]}
{"id": "C39", "title": "Requested separations are honoured", "statement": "A configuration that gives a separation range by step or by sampling yields the separations min, min+step, ... below max.", "quantifier": "all ranges and steps", "why_tests_cant": "All numeric combinations.", "anchors": ["src/parser.c: coffe_parser_init (separations)"]}
{"id": "C40", "title": "Output tables have the columns their header announces", "statement": "A background table written by the program has one column per requested quantity, in the requested order.", "quantifier": "all requested column lists", "why_tests_cant": "All lists, including unknown names and more than twenty columns.", "anchors": ["src/output.c: output_background", "src/common.c: write_ncol_null"]}
{"id": "C41", "title": "The FFTLog window is a smooth cut-off between 0 and 1", "statement": "The window function is 1 on the inner interval, 0 outside the outer one, between 0 and 1 on the edges, and is defined for every argument.", "quantifier": "all real arguments and limits", "why_tests_cant": "Continuous domain including the boundary points.", "anchors": ["src/twofast.c: twofast_window", "src/utils.c: c_window, c_window_2d"]}
{"id": "C42", "title": "FFTLog grids and indices stay inside their buffers", "statement": "For every sampling number the transform reads and writes only inside its buffers and its output abscissae are strictly increasing.", "quantifier": "all sampling numbers", "why_tests_cant": "All N, including 0, 1 and odd N.", "anchors": ["src/twofast.c: twofast_fft_input, twofast_1bessel", "src/twobessel.c: two_sph_bessel"]}
{"id": "C43", "title": "Extrapolation keeps the tabulated data", "statement": "Extending a table in log space leaves the original samples unchanged in the centre and continues with constant ratio on both sides.", "quantifier": "all tables and extension lengths", "why_tests_cant": "All lengths.", "anchors": ["src/utils.c: extrap_log_linear, extrap_log_bilinear, extrap_2dzeros"]}
{"id": "C44", "title": "Quadrature evaluates inside the interval and is exact on antisymmetric integrands", "statement": "The double-exponential rule evaluates the integrand only strictly inside (a,b), a bounded number of times, is homogeneous in the integrand and gives 0 for integrands antisymmetric about the midpoint.", "quantifier": "all integrands, intervals and tolerances", "why_tests_cant": "All functions.", "anchors": ["src/tanhsinh.c: integrate, tanhsinh_quad"]}
{"id": "C45", "title": "Background quantities satisfy their defining identities", "statement": "At every tabulated redshift the conformal Hubble rate equals the Hubble rate times the scale factor, the growth factor is 1 today and the Hubble rate today is H0 when neutrinos are massless.", "quantifier": "all cosmologies and table sizes", "why_tests_cant": "Continuous parameters.", "anchors": ["src/background.c: coffe_background_init", "src/common.c: dark_energy_eos"]}
{"id": "C46", "title": "Cross-correlation of populations: fitted bias coefficients reproduce the bias", "statement": "The polynomial fitted to a bias function over the redshift range reproduces every polynomial bias of at most the fitted degree.", "quantifier": "all polynomial biases and grids", "why_tests_cant": "Continuous inputs.", "anchors": ["src/background.c: coffe_fit_polynomial, coffe_get_bias_coefficients"]}
{"id": "C47", "title": "Matrix row and column copies", "statement": "Copying row i (column j) of a matrix yields exactly its elements in order; an index outside the matrix aborts.", "quantifier": "all matrices and indices", "why_tests_cant": "All sizes.", "anchors": ["src/common.c: copy_matrix_array, alloc_double_matrix, free_double_matrix"]}
{"id": "C48", "title": "Elementwise array helpers", "statement": "Rescaling, multiplying and power-weighting an array changes every element by its formula and nothing else; the maximum helper returns an upper bound that is attained.", "quantifier": "all arrays", "why_tests_cant": "All lengths.", "anchors": ["src/common.c: coffe_rescale_array, coffe_multiply_array, coffe_multiply_power_array, coffe_max_array_double"]}
{"id": "C49", "title": "Single-point and bulk evaluation agree", "statement": "compute_corrfunc(z, r, mu) and compute_multipole(z, r, l) return the same number as the matching entry of the bulk computation.", "quantifier": "all parameter states and coordinates", "why_tests_cant": "All coordinates.", "anchors": ["python/coffe/coffe.pyx: compute_corrfunc, compute_multipole, compute_*_bulk"]}
{"id": "C50", "title": "Enumeration names round-trip", "statement": "For every documented option string of an enumerated parameter, assigning it and reading it back returns the same string; other strings are rejected.", "quantifier": "all strings", "why_tests_cant": "All strings.", "anchors": ["python/coffe/coffe.pyx: _invert_dict, pk_type, integration_1d_type, covariance_integration_method, covariance_interpolation_method"]}
{"id": "C51", "title": "An accepted assignment is read back", "statement": "After an accepted assignment to an attribute, reading the attribute returns the assigned value.", "quantifier": "every attribute, every accepted value, every prior state", "why_tests_cant": "the set of values and prior states is unbounded", "anchors": ["python/coffe/coffe.pyx: property setters and getters"]}
{"id": "C52", "title": "A supplied power spectrum stays in force", "statement": "After set_power_spectrum_linear the supplied spectrum is used by every later computation until another one is supplied.", "quantifier": "every spectrum, every later sequence of operations not supplying a spectrum", "why_tests_cant": "needs all histories", "anchors": ["python/coffe/coffe.pyx: set_power_spectrum_linear, _free_power_spectrum, parameters"]}
{"id": "C53", "title": "The Boltzmann code gets a complete configuration", "statement": "Every entry of the configuration handed to CLASS has been given a name and a value.", "quantifier": "every parameter set", "why_tests_cant": "depends on combinations of parameters; reading uninitialised memory often goes unnoticed", "anchors": ["src/parser.c: parse_external_power_spectrum"]}
{"id": "C54", "title": "Computing does not change parameters", "statement": "No compute_*, background, integral or spectrum method changes the value of any attribute.", "quantifier": "every state and every computing method", "why_tests_cant": "needs all states", "anchors": ["python/coffe/coffe.pyx: compute_*", "src/parser.c: parse_external_power_spectrum"]}
{"id": "C55", "title": "The last amplitude assigned wins", "statement": "Whichever of sigma8 and A_s was assigned last determines the normalisation of the spectrum.", "quantifier": "every sequence of assignments", "why_tests_cant": "order of assignments over all histories", "anchors": ["python/coffe/coffe.pyx: sigma8, A_s", "src/parser.c: parse_external_power_spectrum"]}
{"id": "C56", "title": "power_spectrum answers on the advertised range", "statement": "power_spectrum(k, z) and cross_spectrum return a value or raise for every k in [k_min, k_max] and every z in [0, 15]; they never kill the process.", "quantifier": "every state, k and z", "why_tests_cant": "the failing k depends on the table the Boltzmann code returned", "anchors": ["python/coffe/coffe.pyx: power_spectrum, cross_spectrum, k_min, k_max"]}
{"id": "C57", "title": "Supplying a bias never kills the process", "statement": "set_galaxy_bias1(x, y) and the other table setters either store the table or raise.", "quantifier": "every table", "why_tests_cant": "tables of every length and content", "anchors": ["python/coffe/coffe.pyx: set_galaxy_bias1 ...", "src/common.c: coffe_init_spline"]}
{"id": "C58", "title": "Background quantities always reflect the current parameters", "statement": "comoving_distance, hubble_rate, growth_factor, ... and maximum_separation return what a fresh object holding the same parameters would return.", "quantifier": "every history of operations and every redshift", "why_tests_cant": "needs all histories", "anchors": ["python/coffe/coffe.pyx: comoving_distance, hubble_rate, maximum_separation, _background_init"]}
{"id": "C59", "title": "No call kills the process", "statement": "Every method call on an object in a reachable state returns or raises a Python exception.", "quantifier": "every history of calls", "why_tests_cant": "needs all histories", "anchors": ["python/coffe/coffe.pyx", "src/integrals.c", "src/signal.c"]}
{"id": "C60", "title": "reset_contributions switches every contribution off", "statement": "When reset_contributions() returns, every has_* attribute reads False, a following computation is refused with ValueError, and no other attribute has changed beyond what reading `parameters` changes.", "quantifier": "all object states", "why_tests_cant": "All states and all attributes.", "anchors": ["python/coffe/coffe.pyx: Coffe.reset_contributions, Coffe.parameters, Coffe._check_contributions"]}
{"id": "C61", "title": "The wavenumber range used is the one shown", "statement": "After any sequence of calls, the range of wavenumbers over which the integrals run is the pair (k_min, k_max) that the attributes show.", "quantifier": "all histories and all CLASS outputs", "why_tests_cant": "Two copies of the range are kept and rewritten by assignments, by a user spectrum and by CLASS; all histories.", "anchors": ["python/coffe/coffe.pyx: Coffe.k_min, Coffe.k_max, Coffe.set_power_spectrum_linear", "src/parser.c: parse_external_power_spectrum", "src/integrals.c: coffe_integrals_init"]}
{"id": "C62", "title": "The covariance uses the power spectrum at the redshift of the bin", "statement": "The mixed and cosmic-variance parts for redshift number k are integrals of the power spectrum at that redshift: the linear spectrum scaled by the growth factor, or the nonlinear spectrum of that redshift.", "quantifier": "all spectrum types, integration methods, redshift lists and multipoles", "why_tests_cant": "Three switches (spectrum type, method, source of the spectrum) times continuous inputs; the tests use the linear spectrum.", "anchors": ["src/covariance.c: coffe_covariance_init, covariance_integrate_fftlog"]}
{"id": "C63", "title": "The covariance is that of a Gaussian field", "statement": "Each element of the covariance of multipoles is the Gaussian prediction: cosmic variance, the product of the two redshift-space spectra averaged over the angle with the Legendre polynomials of the two multipoles; the mixed part, one spectrum times the shot noise of the other; and shot noise, non-zero only for the same multipole and separation; each divided by the survey volume of its redshift bin.", "quantifier": "all populations, biases, growth rates, multipoles, separations, volumes and densities", "why_tests_cant": "The angular averages are hand-expanded sums of Wigner symbols; agreement with the integral is a polynomial identity in biases and growth for every pair of multipoles.", "anchors": ["src/covariance.c: coffe_covariance_init, covariance_coefficient", "src/common.c: coffe_legendre_integral"]}
{"id": "C64", "title": "Exchanging the populations of a multipole gives its parity", "statement": "Exchanging the two populations (with their densities) of the first data point multiplies its covariance with any other by (-1)^l; in particular odd multipoles of a population with itself have no variance.", "quantifier": "all populations, densities, multipoles and separations", "why_tests_cant": "A relation between two runs over all inputs; the reference values cover even multipoles of one population.", "anchors": ["src/covariance.c: coffe_covariance_init"]}
{"id": "C65", "title": "Both builds perform the same complex arithmetic", "statement": "The C build (C99 complex numbers) and the C++ build (arrays of two doubles) of the spherical Bessel transforms multiply, scale and conjugate complex numbers alike, so that both give the same transform for the same input.", "quantifier": "all spectra, kernels, sizes and orders", "why_tests_cant": "Only one of the two branches is compiled in any build; equality must hold for every complex number.", "anchors": ["src/twofast.c: twofast_1bessel, twofast_fft_input", "src/twobessel.c: two_sph_bessel"]}
{"id": "C66", "title": "The Bessel transform is linear in the spectrum", "statement": "The values of the transform of a linear combination of two spectra are the same linear combination of their transforms, on the same separations.", "quantifier": "all spectra, coefficients, orders, sizes", "why_tests_cant": "A statement about all pairs of functions and all sizes; FFT plans hide the sums.", "anchors": ["src/twofast.c: twofast_1bessel"]}
{"id": "C67", "title": "The unit of length does not matter to the transforms", "statement": "Giving the wavenumbers in another unit of length, with the same physical spectrum and the separations in the corresponding unit, gives the same separations in that unit and the same values (times the unit of volume for the one-dimensional transform).", "quantifier": "all spectra, units, sizes, orders and ranges of wavenumbers", "why_tests_cant": "A relation between two runs for every positive factor and every function.", "anchors": ["src/twofast.c: twofast_1bessel, twofast_window", "src/twobessel.c: two_sph_bessel"]}
{"id": "C68", "title": "The Bessel transform is the FFTlog sum", "statement": "Each value of the one-dimensional transform is the FFTlog sum of arXiv:1709.02401 over the frequencies of the windowed, biased samples times the kernel, with its prefactor.", "quantifier": "all spectra, kernels, sizes and orders", "why_tests_cant": "The sum is spread over two plans, three buffers and a prefactor array; a test compares a few values to a tolerance.", "anchors": ["src/twofast.c: twofast_1bessel, twofast_fft_input"]}
{"id": "C69", "title": "The multipoles are the projections of the correlation function", "statement": "With quadratures that return the integral, the multipole l returned at a redshift and a separation is (2l+1)/2 times the integral over the cosine of the Legendre polynomial times the correlation function returned at the same redshift, separation and cosine.", "quantifier": "all redshifts, separations, multipoles, contributions and background functions without the flat-sky lensing formulas", "why_tests_cant": "The two outputs come from different integrands and quadratures of different dimensions; a test compares a few values to a tolerance.", "anchors": ["src/signal.c: coffe_integrate, multipoles_nonintegrated_integrand, multipoles_single_integrated_integrand, multipoles_double_integrated_integrand", "src/functions.c"]}
{"id": "C70", "title": "The averaged multipoles average the multipoles over the bin", "statement": "The averaged multipole over a redshift bin is the integral of the multipole over the redshifts of the bin, shortened by half a separation at both ends, with weight 1/(conformal Hubble rate (1+z)), so that every pair counted lies inside the bin.", "quantifier": "all bins, separations, multipoles and contributions", "why_tests_cant": "A relation between integrals of different dimensions, over every bin and separation.", "anchors": ["src/signal.c: average_multipoles_*_integrand, coffe_integrate"]}
{"id": "C71", "title": "In the flat sky the local multipoles are those of linear theory", "statement": "With the flat-sky option for the local terms, the multipoles of density, redshift-space distortions and Doppler are those obtained by expanding the product of their plane-wave amplitudes in Legendre polynomials: monopole, quadrupole and hexadecapole of Kaiser for the galaxies, and no others.", "quantifier": "all redshifts, separations, multipoles, biases and growth functions", "why_tests_cant": "Needs the closed form for every multipole and parameter; a test has no reference but the code itself.", "anchors": ["src/functions.c: functions_nonintegrated", "src/signal.c: coffe_integrate"]}
{"id": "C72", "title": "The flat-sky correlation function is the limit of the full-sky one", "statement": "When the distance to the pair grows, with the separation and all functions of the redshift kept, the full-sky correlation function of density, redshift-space distortions and Doppler tends to the one returned with the flat-sky option.", "quantifier": "all separations, cosines, redshifts, continuous background functions and sets of the three contributions", "why_tests_cant": "A limit cannot be tested.", "anchors": ["src/functions.c: functions_nonintegrated"]}
{"id": "C73", "title": "The derivative options return derivatives", "statement": "With an option asking for the derivative with respect to the bias, the growth rate, or one of them times the growth factor, the outputs are the derivatives of the outputs without the option.", "quantifier": "all redshifts, separations, cosines, multipoles, biases, growth rates", "why_tests_cant": "The derivative is a limit, and the branches for it are separate code in every term.", "anchors": ["src/functions.c: functions_nonintegrated", "src/parser.c: b_derivative, f_derivative, b_tilde_derivative, f_tilde_derivative"]}
{"id": "C74", "title": "An approximation keeps every contribution", "statement": "Turning on an approximation changes how a contribution is computed, and does not leave a requested contribution out of an output.", "quantifier": "all configurations, outputs and sets of contributions", "why_tests_cant": "The combinations of options, outputs and contributions are too many, and leaving a small contribution out looks like a small error.", "anchors": ["src/functions.c: functions_single_integrated, functions_double_integrated", "src/signal.c: coffe_integrate", "src/parser.c: coffe_parse_default_parameters", "python/coffe/coffe.pyx: compute_corrfunc, compute_average_multipoles"]}
{"id": "C75", "title": "The kernels come from one potential correlation", "statement": "The kernel of every pair of contributions, as a function of the two distances and the angle, is the one obtained by applying the two operators of the contributions (gradients along the lines of sight and angular Laplacians) to one isotropic correlation.", "quantifier": "all distances, angles and isotropic correlations", "why_tests_cant": "An identity of functions of three variables for each of the 55 pairs; a test samples points with the formula it checks.", "anchors": ["src/functions.c: functions_nonintegrated, functions_single_integrated, functions_double_integrated"]}
{"id": "C76", "title": "The maximum separation is the largest that fits the bin", "statement": "The maximum separation reported for a redshift bin is the largest for which a pair along the line of sight lies inside the bin, and every separation up to it gives an average over redshifts of the bin.", "quantifier": "all bins and increasing distance functions", "why_tests_cant": "Optimality over every separation.", "anchors": ["python/coffe/coffe.pyx: maximum_separation"]}
{"id": "C77", "title": "The tables hold the integrals they stand for", "statement": "With exact quadrature and special functions, the entry of an integral table at a separation below 1 Mpc is the integral of k^2 P(k) j_l(kr)/(kr)^n over the wavenumbers (times r^(n-l) if l <= n), for integer and half-integer orders, and the entry at zero separation is its limit.", "quantifier": "all orders, spectra, wavenumber ranges and samplings", "why_tests_cant": "The value at zero is a limit; a test compares with numbers made by the same formulas.", "anchors": ["src/integrals.c: integrals_coefficients, integrals_prefactor, integrals_bessel_integrand, integrals_integrate_function, coffe_integrals_renormalizable"]}
{"id": "C78", "title": "The divergent integral at coinciding points is the limit of its values apart", "statement": "The value used for the renormalised integral of the potential terms when the two points coincide is the limit of the values used when they are apart.", "quantifier": "all distances and spectra", "why_tests_cant": "It is a limit, and coinciding points are hit only by some quadrature points.", "anchors": ["src/integrals.c: coffe_integrals_init, integrals_renormalization0_integrand, integrals_renormalization"]}
{"id": "C79", "title": "The evolved tables agree with the others when the spectrum is the same", "statement": "Each entry of a table in redshift and separation is the entry the one-dimensional table would have with the spectrum of that redshift, and the tables cover every redshift of the run.", "quantifier": "all spectra, redshifts, separations and orders", "why_tests_cant": "The tables have 100 redshifts for every separation and order, and depend on the spectrum.", "anchors": ["src/integrals.c: coffe_integrals_init", "src/functions.c: functions_single_integrated"]}
{"id": "C80", "title": "The nonlinear formulas reduce to the linear ones", "statement": "If the nonlinear spectrum is the linear one with the same growth at every redshift, the correlation function, the multipoles and the averaged multipoles computed with the nonlinear spectrum are those computed with the linear one.", "quantifier": "all sets of contributions, options, tables, splines, points, orders and quadratures", "why_tests_cant": "Every pair has separate code for the two spectra, with several branches each; a test sees a few points of a few pairs.", "anchors": ["src/functions.c: functions_nonintegrated, functions_single_integrated, functions_double_integrated, functions_flatsky_lensing_lensing_multipoles, functions_flatsky_density_lensing_multipoles", "src/signal.c: coffe_integrate"]}
{"id": "C81", "title": "The flat-sky lensing multipoles are the projections of the flat-sky correlation function", "statement": "With the flat-sky options for density-lensing and lensing-lensing, the multipole l returned at a redshift and a separation is (2l+1)/2 times the integral over the cosine of the Legendre polynomial times the flat-sky correlation function returned by a run with the same settings, although the two are computed from different tables.", "quantifier": "all spectra, wavenumber ranges, redshifts, positive separations, multipoles, sets of contributions, options and continuous backgrounds", "why_tests_cant": "The multipoles use closed formulas (Gegenbauer's and Sonine's integrals of Bessel functions) whose coefficients depend on the multipole; a test sees a few multipoles of one spectrum, within its quadrature error.", "anchors": ["src/functions.c: functions_flatsky_density_lensing_multipoles, functions_flatsky_lensing_lensing_multipoles, functions_single_integrated, functions_double_integrated", "src/signal.c: coffe_integrate", "src/integrals.c: coffe_integrals_init"]}
{"id": "C82", "title": "Computing again gives the same result", "statement": "Two successive compute_corrfunc_bulk, compute_multipoles_bulk or compute_average_multipoles_bulk calls with recompute=True, with no setting changed between them, return the same results.", "quantifier": "all histories of the object, all CLASS outputs, the three bulk functions and any number of repetitions", "why_tests_cant": "The second call starts from an object that the first call has changed (the wavenumber range is clamped to what CLASS returned); a drift of the range shows only after repetitions and depends on what CLASS returns for each request.", "anchors": ["python/coffe/coffe.pyx: compute_corrfunc_bulk, compute_multipoles_bulk, compute_average_multipoles_bulk, _power_spectrum_init", "src/parser.c: parse_external_power_spectrum (P_k_max_h/Mpc, clamping of k_min and k_max)"]}
{"id": "C83", "title": "The kernels of the logarithmic transforms are defined and consistent", "statement": "For every integral the program tabulates by a logarithmic transform, for every sampling and every range of wavenumbers, the transform's kernel is a finite number at every frequency, so the kernel never ends the process. Opposite frequencies have conjugate kernels, as the half-complex transforms assume, and the one-dimensional and two-dimensional transforms use the same kernel and the same gamma function, which obeys Euler's reflection formula and is positive on the positive axis.", "quantifier": "all complex arguments other than the poles, all frequencies, orders and biases; all combinations of settings that decide which integrals are made, all lists of non-negative multipoles", "why_tests_cant": "The frequencies depend on the sampling and the wavenumber range, so the arguments of the approximated gamma function fill a strip of the complex plane; that the approximating sum has no zero there is a statement about all of them.", "anchors": ["src/twofast.c: twofast_lgamma, twofast_gamma, twofast_mql, twofast_selectqnu", "src/utils.c: lngamma_lanczos, g_l", "src/integrals.c: coffe_integrals_init"]}
{"id": "C84", "title": "The covariance of a redshift is positive semidefinite", "statement": "The covariance matrix returned for one redshift bin, between all pairs of (multipole, separation) of one pair of populations, is positive semidefinite whichever of its parts (shot noise, mixed, cosmic variance) are asked for: no linear combination of the data has a negative variance, variances are not negative and correlation coefficients lie between -1 and 1.", "quantifier": "all lists of multipoles up to 10 and of separations, all biases, growth rates, densities and volumes, all non-negative power spectra, with and without the window, all weights of the data points", "why_tests_cant": "Positivity is a statement about all combinations of the data for all surveys; a test of eigenvalues settles one matrix.", "anchors": ["src/covariance.c: coffe_covariance_init, covariance_integral, covariance_windowed_bessel", "python/coffe/coffe.pyx: compute_covariance_bulk, compute_average_covariance_bulk"]}
{"id": "C85", "title": "The command-line tool writes the table it names", "statement": "For every settings file that loads and every kind of output, the tool python -m coffe either passes on the exception of the method it calls (leaving the output file as it was), or is killed where the method is, or writes a header and one tab-separated line per data point, in the order of the array, with coordinates and value of that point under the names of the header, multipoles as whole numbers. The outcome does not depend on how the threads run, a file once opened is never left without its table, and settings that are careful in the sense of C59 never kill the process; the background table has one line for each of the requested redshifts between 0 and 15.", "quantifier": "all settings files, all kinds, all results of the numerical routines, all schedules, all numbers of background points up to 2^31-1", "why_tests_cant": "It ranges over all settings, list lengths and schedules; that rounded sampling redshifts never exceed 15 is a statement about every number of points.", "anchors": ["python/coffe/__main__.py: compute_output", "python/coffe/coffe.pyx: from_file, compute_*_bulk, scale_factor, hubble_rate, comoving_distance"]}
{"id": "C86", "title": "An object loaded from a file is one set up by hand", "statement": "Whatever a settings file contains, if it loads, the object is the one a sequence of attribute assignments and bias setters makes from a new object; so its parameters are in their documented ranges (NaN excepted) and the first computation on it, with or without recomputation, gives what a new object with the same parameters gives.", "quantifier": "all settings files and orders of options, all outputs", "why_tests_cant": "It must hold for every settings file; it transfers what holds after every history.", "anchors": ["python/coffe/coffe.pyx: from_file, set_galaxy_bias1, compute_*_bulk"]}
{"id": "C87", "title": "Nothing jumps where the two lines of sight meet", "statement": "Where one galaxy lies on the line of sight to the other, or two points along the lines of sight coincide, the integrands of the integrated terms (lensing, time delay, ISW, with all other terms) are the limits of their values nearby: for a smooth background and smooth tables they are continuous in the cosine and in the positions along the lines of sight, so the special code for coinciding points adds no spurious spikes to the signal.", "quantifier": "all backgrounds, biases and tables that are continuous, all sets of contributions, all mean redshifts, separations smaller than twice the distance, cosines from -1 to 1 and positions", "why_tests_cant": "A quadrature rule hits the coinciding points only by accident, and a limit is a statement about all points nearby.", "anchors": ["src/functions.c: functions_single_integrated, functions_double_integrated"]}
{"id": "C88", "title": "A result shows its coordinates and its value", "statement": "An element of the arrays the bulk methods return has exactly the documented attributes, each with the value it was computed for; to_dict lists exactly these, with no other name of the class; the HTML table shows each name and value once, in the same order, and distinguishes results whose values have different texts.", "quantifier": "every kind of result, all values, all names Python adds to a class", "why_tests_cant": "All values and all versions of Python.", "anchors": ["python/coffe/representation.py: Representation.to_dict, _repr_html_, Covariance, AverageCovariance, Corrfunc, Multipoles, AverageMultipoles", "python/coffe/coffe.pyx: compute_*_bulk"]}
{"id": "C89", "title": "The dark energy density is not negative", "statement": "No accepted assignment leaves a parameter object whose dark energy density is negative, as the error message of the density setters promises (\"Cannot satisfy the condition Omega_de >= 0\").", "quantifier": "every history of assignments and calls", "why_tests_cant": "All values and orders of assignments, and all roundings.", "anchors": ["python/coffe/coffe.pyx: _check_omegas, the setters of omega_cdm, omega_baryon, omega_m, omega_gamma, m_ncdm"]}
