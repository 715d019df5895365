# A Rocq model of COFFE

This directory holds a machine-checked model of JCGoran/coffe (`/repo`, pinned commit)
and proofs of the properties listed in `properties.jsonl`.

## Trusted base

* Coq 8.16.1's kernel (and `coqchk`, which re-checks every compiled module).
* The axioms `Print Assumptions` lists beneath each theorem; `ASSUMPTIONS.md` (generated by
  `tools/assumptions.py`) gives the list for every claimed theorem.  Only axioms of Coq's own
  standard library occur: `ClassicalDedekindReals.sig_forall_dec`,
  `ClassicalDedekindReals.sig_not_dec` and
  `FunctionalExtensionality.functional_extensionality_dep` in theorems about real numbers
  (they come with `Reals`), and `Classical_Prop.classic` where Coquelicot's integrals and
  limits, or Flocq's rounding, are used.  About two thirds of the theorems, among them everything about the Python
  object, the settings parser, the program, the files and the memory, are closed under the
  global context.  No axiom is added here.
* The reading of the C / Cython source that turned it into Gallina.  Every definition cites
  the lines it models and says what it leaves out.
* External code is never modelled in detail.  Numerical kernels (GSL splines, integrators and
  ODE solver, FFTW, CUBA, CLASS, libconfig, libc I/O) appear as universally quantified
  functions, so a theorem holds whatever they compute.  The exceptions are spelled out where
  they occur (for instance GSL's documented interval search with a lookup cache, used in the
  thread-interleaving result).

## Conventions

* C `double` arithmetic inside physical formulas is modelled by real numbers `R` (rounding is
  not modelled there).  Validation and bookkeeping of Python floats uses IEEE binary64 through
  the standard library's `SpecFloat` (NaN, infinities and rounding are therefore modelled).
* Undefined behaviour, `exit()` and a raised Python exception are separate outcomes.
* A property the faithful model violates is proved as `..._refuted` with a concrete witness:
  that is a finding about the code.  What does hold is proved beside it.
* A theorem that proves only part of a property carries the suffix `_partial`.

## Plan: what is modelled for each property, and how it is proved

| id | model | proof |
|----|-------|-------|
| C01-C05 | the Python object: parameters, the eight caches, every setter with the caches it drops, lazy initialisation in every compute method; numerical kernels symbolic: a cache stores the snapshot of the parameter fields its C routine reads | invariant over operation lists for the safe setters of each output; for each unsafe setter a witness history (`_refuted`) |
| C06, C07 | the setters with their checks on binary64 | case analysis over all setters; range invariant over histories (numbers that are not NaN); NaN witness refutes the unrestricted claim |
| C08, C09 | density setters | invariant over histories; witness for the broken matter budget; error bound of two roundings (C08_sum) |
| C10, C11 | `set_parameters`, `parameters` | induction over the dictionary; witness for partial application; witness for dropped caches |
| C12, C13 | `to_file`, `from_file` as a map of option to textual value, options visited in an arbitrary order | round trip for the covered options, refutation for missing ones and for order dependence |
| C14, C26 | the coordinate and value loops of the drivers | induction over lists: output equals the ordered cartesian product |
| C15, C16 | threads as interleaved atomic reads and writes; GSL lookup cache | invariant over interleavings; witness interleaving for the shared cache |
| C17, C18 | construction of the integral table and all look-up keys of functions.c | case analysis over flags, induction over the multipole list |
| C19-C22 | functions.c and signal.c formulas over R with abstract background, bias and integral functions | ring/field identities per term, sums over the list of terms; refutations by explicit numbers |
| C23-C28 | the covariance drivers over R | algebra of finite sums |
| C29-C31, C43, C44, C47, C48 | common.c, utils.c, tanhsinh.c helpers | induction, real arithmetic; C29 and C39 also for doubles (Props_Rounding: monotone rounding, error of four roundings, exact subtraction below the normal range) |
| C32-C34, C40 | bytes of the files, C stdio line reader with 256-byte buffer | induction over bytes/lines; refutations |
| C35, C36 | heap of blocks, pointer fields, every init/free routine | invariant over histories of calls; witnesses for leaks and out-of-bounds |
| C37-C39, C50 | main.c, parser.c decisions, option dictionaries | case analysis |
| C41, C42 | twofast.c window and index arithmetic | real analysis / linear arithmetic |
| C45 | background.c table formulas with abstract integrals | field identities |
| C46 | least squares is delegated to GSL: only the exactness of interpolation by the normal equations is stated | algebra (partial) |
| C49 | single-point versus bulk drivers | refinement between the two drivers |
| C51, C55 | the setters of the Python object, `np.allclose` on binary64 | case analysis over setters and histories |
| C52, C54, C56-C59 | the same object with its caches | invariants over histories; witnesses; C59: a decidable notion of careful call (`careful`) and an invariant saying the table of integrals has every key the settings can ask for |
| C53 | the table of settings handed to CLASS | evaluation of the slots for all parameters |
| C60 | `reset_contributions` | case analysis |
| C61 | k_min and k_max in the object and in the kernels | invariant over histories |
| C62-C64 | the covariance drivers over R | algebra of finite sums, Legendre integrals up to the order accepted |
| C65-C68 | twofast.c and twobessel.c over the complex numbers | induction over the loops; linearity of the discrete Fourier sum |
| C69, C70 | the three plans of signal.c with a quadrature that returns the Riemann integral | change of variables, linearity and Fubini written as hypotheses on the integrands |
| C71 | the flat-sky branches of functions.c as sums of Legendre polynomials | orthogonality of the Legendre polynomials for every order |
| C72 | functions.c with all distances multiplied by a factor | each kernel as a rational function of the inverse factor, continuous at 0 |
| C73, C74 | the branches of functions.c on the option flags | differentiation of the closed forms; all terms of the dropped families are 0 |
| C75 | the kernels of functions.c | derivatives of a function of the distance between two points, law of cosines |
| C76 | `maximum_separation` of coffe.pyx with the bin of signal.c | monotonicity of the distance |
| C77 | the integrands, coefficients and entries of integrals.c | Bessel functions by Poisson's integral, integration by parts, Wallis, a Lipschitz bound for the limit |
| C78 | the three tables of the divergent integral | the same bound; positivity of 1 - sinc^2 |
| C79 | the loops that fill the tables in redshift and separation | induction over the strided stores |
| C80 | both branches of every block of functions.c | block by block: the nonlinear increment is a constant times the linear one |
| C81 | the two flat-sky formulas of functions.c:4020-4253, the flat-sky branches of 1571-1618 and 3521-3561, the tables of C77 | both sides are expanded in powers of the separation (Gegenbauer's and Sonine's integrals), then matched with the tables |
| C82 | compute_*_bulk with recompute=True (PyState), the clamping of the wavenumbers to the table of CLASS (parser.c:608-615) | induction on the number of calls; the refutation runs the model on two calls with a CLASS whose table ends where asked |
| C83 | LogGamma: twofast_lgamma, twofast_gamma, twofast_mql, lngamma_lanczos, g_l over complex numbers | the sum of Lanczos' formula is a quotient of polynomials; its numerator has no zero in the right half plane because the quotients of Routh's scheme, computed exactly, are all positive; the rest from exp(log z) = z and sin(pi z) vanishing only at integers |
| C84 | the covariance model (Covariance), the rule of integration linear and positive | each part is a sum, an integral over directions or one over wavenumbers of products v(a) v(b) with non-negative weights; the sign (-1)^((l2-l1)/2) splits between the data points for multipoles of the same parity and meets a zero coupling otherwise |
| C85 | Cli: compute_output on the loaded object, np.savetxt; Rounding, Nodes: the doubles as rounded reals (Flocq), np.linspace | the endings are characterised exactly (an equivalence), from C14, C59 and C86; rounding to nearest is monotone and the error of the step is below 1/n, so no sampling redshift exceeds 15 |
| C86 | from_file (Config) and the Python object | every phase of from_file is a careful step of a history on an object without caches |
| C87 | Terms: functions_single_integrated and functions_double_integrated; tables and background as continuous functions | the branches for coinciding points equal the general formula there; every expression tends to its value along the filter of neighbourhoods, quotients by r^2 because their numerators are O(r^2); counterexamples for lensing with itself (F8) and for nonlinear spectra (F10) |
| C88 | representation.py, the elements built at coffe.pyx:3334-3535 | sorting commutes with filtering, str.format filled from left to right, cells end at the first "<" |
| C89 | _check_omegas (coffe.pyx:1056-1061) and the density setters | invariant over histories without m_ncdm; witnesses with negative m_ncdm and at the last bit |

## The modules

| module | models |
|--------|--------|
| F64 | IEEE binary64 by `SpecFloat`, Python's truncation, `np.allclose` |
| PyParams, PySet, PyState, PySpec, Integrals | coffe.pyx: parameters, setters, caches, compute methods, getters |
| PyWrites, PyCoherence, PyCovCoherence, PyAlways, PyValid, PyUnless, PyFresh, PyKeep | lemmas about them |
| Config, ConfigLemmas, Trip | coffe.pyx `to_file`, `from_file` |
| ClassConfig | parser.c:296-551, the table handed to CLASS |
| Arrays, Sched, Drivers, Accel | common.c arrays; the OpenMP loops of corrfunc.c, multipoles.c, average_multipoles.c; the look-up cache |
| CExpr, Terms, Signal | functions.c (all pairs of contributions, full sky and flat sky) and signal.c |
| Weights, TermsMeta, TermsSum, SignalSum, Additive, Exchange, ExchangeSignal | lemmas about them: sums over pairs of contributions, the weight of each field, exchange of populations |
| Evolved | lemmas: the nonlinear branches of functions.c against the linear ones |
| Meet | lemmas: limits of the integrands where points coincide |
| Sonine, Lensing, LensingTerms | lemmas: power series of integrals of Bessel functions, what the flat-sky terms project to, the flat-sky branches of the code |
| Legendre, Kernels, Multipoles, Flat | specifications and lemmas: Legendre polynomials, derivatives of one correlation, projections, linear theory in the flat sky |
| Lookup, Uses, Built | which integrals integrals.c builds and functions.c reads |
| FileIO, Output, FileLemmas | common.c readers and writers, output.c background table |
| Coupling, Numeric | common.c and covariance.c numerical helpers |
| Covariance, CovLemmas | covariance.c |
| Fft | twofast.c, twobessel.c |
| Tanhsinh, TanhsinhLemmas | tanhsinh.c |
| Background, Fit | background.c |
| Tables | integrals.c:76-126, 189-975, the strided tables of 668-1400, common.c:920-942 |
| LogGamma | the gamma functions and kernels of twofast.c and utils.c |
| Parser, ParserLemmas | parser.c, the settings file |
| Main, MainLemmas | main.c, output.c |
| Cli | python/coffe/__main__.py |
| Representation | python/coffe/representation.py |
| Rounding, Nodes | lemmas: SpecFloat against Flocq's rounding of reals; np.linspace |
| Bounds | the arrays the drivers index, after the parser or the Python object |
| Memory, MemoryLemmas, MemorySteps, MemoryTidy | who owns each allocation |
| Props_* | the theorems of the properties |

## Not modelled

* GSL, FFTW, CUBA, CLASS, libconfig, libc's number formatting and numpy: parameters, or the
  part of their contract a theorem needs, written in its statement.
* Rounding inside the physical formulas (functions.c, signal.c, covariance.c, background.c,
  integrals.c, twofast.c, twobessel.c): real arithmetic.
* Time, terminal output, allocation failure, `HAVE_INTEGRALS` tables, POSIXLY_CORRECT.
* twobessel.c routines nothing calls; the two-dimensional extrapolations of utils.c. The accuracy of the Lanczos
  approximation, and the overflow of csin at large frequencies (where the kernel becomes zero), which real arithmetic hides.
* The contents of memory blocks in the memory model; there the two orders of release that
  differ from the source are named in its comments.
* The argument parser of __main__.py, settings files that cannot be opened or parsed, output files
  that cannot be written.
* errors.c; the thin wrappers of the Python layer that only repackage arrays; `__repr__` and `__str__` of the results.

## Findings: what the code does not do

Each is a `_refuted` theorem or is visible in the statement of a `_partial` one.

* **Stale results (C01-C05).** Setters that do not drop the caches that depend on them: the
  separations, redshift bounds and biases for the averaged multipoles, the separations and
  galaxy biases for the covariances, and others listed in `Props_Cache.v`.
* **Settings of the object (C06-C13, C51, C55).** NaN passes every range check; an empty
  spectrum and `m_ncdm` with h = 0 leave partial updates; `omega_cdm` ignores massive
  neutrinos; the check of `omega_baryon` uses the old cold matter; `set_parameters` stops half way; reading
  `parameters` drops caches and a supplied spectrum; six attributes are not restored from a
  file, empty lists do not load, the order of options in a file matters; `sigma8` does not
  win over an earlier `A_s`; `integrals_fftlog_sampling` cannot be assigned.
* **Formulas (C20-C22), functions.c.** (F1) the second half of d1-len uses the first
  population's factors at the wrong place (2645-2646, 2775-2776, 2908-2909, 2989-2990);
  (F2) g5-len has H(H-1) for H(f-1); (F3) d1 with d2 and g1..g5 lacks its factor G
  (1225-1263, 3228-3254); (F4) den-g5 multiplies by the scale factor (3154, 3160);
  (F5) g1, g2, g3 with len lack 1/a (3041-3119); (F8) len-len at coinciding points uses 4 for
  4/3 of the integral (3829), so it jumps there (`C87_len_len_refuted`); (F9) potential terms have no midpoint branch, and with a nonlinear
  spectrum no growth factor either (C80); (F10) the
  coincidence limits of den-len and len-len read another table (`C87_nonlinear_refuted`); (F11) the integrated
  potential terms take the renormalisation at the first point; (F12) den-len with one
  coinciding point tests another flag and may read a table that was never built.
* **Doppler (C75, C71), functions.c:364-573.** (F13) the I^2_2 part of d1-d1 has the opposite
  sign, in the full sky and in the flat sky: the correlation is not the one of a gradient field.
* **Divergent integral (C78), integrals.c:805-845.** (F14) the table for coinciding points is
  made by the function that multiplies by r^(n-l) with n = 4, l = 0, so it holds x^4 times the
  limit it stands for.
* **Evolved tables (C79), integrals.c:911-1077.** (F15) the flat-sky density-lensing table is
  rescaled by 2 pi^2 sqrt(2/pi) in its linear form only, and functions.c:1571-1618 uses both
  forms with the same factor; the redshifts of the evolved tables end at 2.97.
* **Flat-sky multipoles (C81).** (F16) with a nonlinear spectrum the density-lensing multipoles
  are 2 pi^2 sqrt(2/pi) (more than 12) times the projections of the correlation function, as
  F15 only affects the latter; (F17) the flat-sky lensing-lensing correlation function takes
  the linear spectrum whatever the spectrum asked for (functions.c:3521-3561), the multipoles
  the nonlinear one (functions.c:4047-4081).
* **Repeating a computation (C82).** (F18) CLASS is asked for wavenumbers up to k_max in h/Mpc
  (parser.c:449-450) and its table is in 1/Mpc, so it ends at h k_max; parser.c:612-615 then
  lowers k_max to that value. A second compute_*_bulk(recompute=True) asks CLASS for h k_max and
  ends at h^2 k_max, and so on: each call returns a different result although nobody changed a
  setting, and after ten calls the default 300/Mpc has become less than 6/Mpc
  (`C82_narrows`, `C82_repeat_refuted`). That CLASS ends its table exactly where asked is a
  hypothesis (`ends_where_asked`); `C82_repeat_partial` holds for any CLASS that covers the range.
* **Redshift-space distortions with lensing (C87), functions.c:2199-2391.** (F19) from |mu| = 0.999 on
  the coefficient of I04 is the one of |mu| = 1, so the integrand jumps there (`C87_threshold_refuted`)
  and is not the correlation of the two fields at any cosine from there to 1 (`C22_threshold_refuted`).
* **Integrated potentials with each other (C21), functions.c:3495-3497.** (F20) points closer than
  10^-6 get the value of the first of them, so that exchanging the populations changes the result
  (`C21_near_refuted`) and the integrand jumps there (`C87_potentials_refuted`).
* **Dark energy (C89), coffe.pyx:1056-1061.** (F21) the setters reject densities that would make the
  dark energy negative, but m_ncdm may be negative and counts with its sign: after m_ncdm = -50,
  omega_cdm = 1.5 is accepted and leaves a density below -1/2 (`C89_negative_refuted`).
* **Averages (C70).** Above the maximum separation the ends of the shortened bin are swapped
  and the average is over pairs outside the bin, with negative sign, without an error.
* **Derivative options (C73).** With two populations the derivative with respect to the bias
  uses twice the first bias; outside the flat sky, and with a nonlinear spectrum, the terms
  ignore the options.
* **Approximations (C74).** The Python object always has the output type of the multipoles
  (parser.c:927), so with the flat-sky options for the integrated terms its correlation
  function and its averaged multipoles have no lensing at all.
* **Threads (C15, C16).** The spline look-up cache is shared between threads without
  synchronisation: values may come from a neighbouring interval.
* **Covariance (C23-C28, C62-C64).** FFTlog is not symmetric in its two arguments; the first pixel
  size is used for every redshift with bins and a linear spectrum; Bessel orders above 6
  average to 0; entries at redshift 0 cannot be looked up; FFTlog with a nonlinear spectrum
  uses redshift 0; the averaged covariance divides by a number that is not the volume;
  odd multipoles of one population with itself have cosmic variance.
* **Numbers (C29-C31, C44).** Generated ranges may repeat values; the requested precision of
  the quadrature is ignored, it may stop after 25 points, its error estimate is DBL_MAX times a constant when the
  first two estimates agree, and the end point can be evaluated.
* **Files (C32-C34, C40).** Lines above 254 bytes are split, a last line without newline is
  lost, `write_matrix` drops the last column, `write_ncol` reads outside its arrays, headers
  above 255 bytes and twenty columns or more overflow.
* **FFT (C41-C43, C65).** An unassigned variable is returned at the inner edges of the window,
  narrow wavenumber ranges end the process, odd and small sizes read out of bounds; the C++
  branch of twobessel.c multiplies real and imaginary parts separately.
* **Background (C45, C46).** Fewer than five bins is undefined; one entry of the Jacobian is
  wrong; the growth equation leaves out radiation; the bias fit gives NaN near redshift 0.
* **CLASS (C53, C55).** 3 or 4 of 35 slots are never written, the value of "non linear" is
  missing for linear spectra, an A_s below 1e-10 is ignored.
* **Settings file (C36, C38, C39).** The step of the separations is never used, type 5 ignores
  the separations, lists that are missing take defaults, missing texts are undefined
  behaviour, unknown contributions are ignored, two derivative options pass if a third is
  negative, the pixel sizes are not compared for type 5, type 3 and type 5 read differently
  named redshift bounds, a missing spectrum file silently gives the built-in one.
* **Program (C37).** The averaged multipoles are written nowhere; results are appended, so a
  second run mixes with the first; an output that cannot be opened is written through a
  null pointer; file names are cut at 255 bytes so that two outputs may be one file.
* **Memory (C35).** No double free or use after free in any history, but leaks: each bias
  assignment, a second CLASS run, empty lists, flat-sky fits, nonlinear integrals, the
  settings parser, and the averaged multipoles at the end of the program.
