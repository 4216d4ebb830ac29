{"id": "C01", "title": "Load balancing loses and duplicates nothing", "statement": "balance_load(split_catalog, mpi_size) returns exactly mpi_size queues and the catalogs in all queues together are exactly the input catalogs, each once.", "quantifier": "every list of catalogs (any sizes, ties, empties) and every mpi_size >= 1", "why_tests_cant": "the number of catalogs, their sizes and the number of ranks are unbounded", "anchors": ["py/qsonic/mpi_utils.py: balance_load"]}
{"id": "C02", "title": "Load balancing is greedy-fair", "statement": "After balance_load the loads (number of quasars) of any two ranks differ by at most the size of the largest single catalog, and no rank stays empty while another one holds two non-empty catalogs.", "quantifier": "every list of catalogs and every mpi_size >= 1", "why_tests_cant": "worst-case bound over an unbounded input space", "anchors": ["py/qsonic/mpi_utils.py: balance_load"]}
{"id": "C03", "title": "Every quasar is assigned to exactly one rank and healpixels are never shared", "statement": "For a catalog sorted by the grouping column, mpi_get_local_queue gives every catalog row to exactly one rank, every local catalog holds rows of a single healpix (or tile), and two different local catalogs, on the same or on different ranks, never share a healpix.", "quantifier": "every sorted catalog, every number of ranks", "why_tests_cant": "quantifies over all catalogs and communicator sizes; MPI tests run with a handful of ranks", "anchors": ["py/qsonic/catalog.py: mpi_get_local_queue", "py/qsonic/mpi_utils.py: balance_load"]}
{"id": "C04", "title": "Healpix-named delta files of different ranks never overwrite each other", "statement": "With save_by_hpx and a healpix-grouped queue, the sets of delta file names written by two different ranks are disjoint, so that clobber=True never deletes another rank's output; with a tile-grouped queue this fails.", "quantifier": "every catalog, every number of ranks, every selection of surviving spectra per rank", "why_tests_cant": "a race between ranks on a shared file system, depends on the distribution of quasars", "anchors": ["py/qsonic/io.py: save_deltas", "py/qsonic/catalog.py: mpi_get_local_queue", "py/qsonic/scripts/qsonic_fit.py: args_logic_fnc"]}
{"id": "C05", "title": "save_deltas writes every valid spectrum exactly once and nothing else", "statement": "When save_deltas succeeds, every spectrum whose continuum is valid is written to exactly one file (its rank's file or its healpix's file), spectra with invalid continuum are written nowhere; without an output directory nothing is written; if blinding has not been decided it refuses before writing anything.", "quantifier": "every list of spectra, healpix numbers, valid flags and both naming modes", "why_tests_cant": "all groupings of spectra over healpixels", "anchors": ["py/qsonic/io.py: save_deltas", "py/qsonic/spectrum.py: valid_spectra"]}
{"id": "C06", "title": "Catalog priming is a sound and complete filter", "statement": "read_quasar_catalog keeps exactly the rows with zmin <= Z <= zmax whose survey is requested (when surveys are requested), returns them sorted by the grouping columns with unique TARGETID, and raises instead of returning an empty or ambiguous catalog.", "quantifier": "every catalog, redshift range and survey list", "why_tests_cant": "order and filter properties over all catalogs", "anchors": ["py/qsonic/catalog.py: read_quasar_catalog, _prime_catalog, _validate_adjust_column_names"]}
{"id": "C07", "title": "Each quasar is looked up in the file of its own survey", "statement": "When a healpix catalog with several surveys is read, every quasar is searched in the coadd file of its own SURVEY, for whatever way the catalog was produced by the public API (keep_surveys given or None, exposures 'after' re-sorting).", "quantifier": "every catalog returned by the catalog API and every mixture of surveys in a healpix", "why_tests_cant": "depends on the interleaving of surveys inside one healpix", "anchors": ["py/qsonic/io.py: read_onehealpix_file_data_coadd, read_onehealpix_file_data_uncoadd", "py/qsonic/catalog.py: _prime_catalog", "py/qsonic/scripts/qsonic_fit.py: mpi_read_exposures_after"]}
{"id": "C08", "title": "A spectrum carries the data of its own TARGETID (coadded files)", "statement": "For every spectrum produced by the coadd/tile/mock readers, flux, ivar, mask (and true continuum) come from a row of the file whose TARGETID equals the TARGETID of the spectrum's catalog row; quasars missing from the file are dropped without shifting the others.", "quantifier": "every sorted catalog, every fibermap order with unique TARGETIDs, every subset of missing targets", "why_tests_cant": "misalignment appears only for particular orders and missing subsets", "anchors": ["py/qsonic/io.py: _read_onehealpix_file, _read_true_continuum", "py/qsonic/spectrum.py: generate_spectra_list_from_data"]}
{"id": "C09", "title": "A spectrum carries the data and metadata of its own exposure", "statement": "For the exposure (uncoadded) reader every spectrum's flux row, TARGETID and EXPID/NIGHT belong to one and the same fibermap row, all exposures of the catalogued quasars in the file are returned and nothing else, for every tie-breaking of the sort.", "quantifier": "every fibermap with arbitrary repetitions of TARGETIDs, every catalog, every sort implementation", "why_tests_cant": "numpy's argsort is unstable: all tie-breaking orders must be covered", "anchors": ["py/qsonic/io.py: _read_onehealpix_file, read_onehealpix_file_data_uncoadd"]}
{"id": "C10", "title": "Resolution matrices read separately belong to their spectrum", "statement": "read_resolution_matrices_onehealpix_data attaches to each spectrum the resolution matrix stored for its own TARGETID, or reports that it is missing.", "quantifier": "every list of spectra and fibermap", "why_tests_cant": "only fails when a target is missing from the file", "anchors": ["py/qsonic/io.py: _read_onehealpix_file_onlyreso"]}
{"id": "C11", "title": "Delta files are partitioned over the ranks of qsonic-calib", "statement": "mpi_read_all_deltas makes the ranks read disjoint sets of delta files that together are all delta files.", "quantifier": "every number of files and every number of ranks", "why_tests_cant": "depends on divisibility of two unbounded numbers", "anchors": ["py/qsonic/scripts/qsonic_calib.py: mpi_read_all_deltas"]}
{"id": "C12", "title": "Broadcast helpers never split the ranks", "statement": "mpi_fnc_bcast and mpi_parse either return the same value on every rank or fail on every rank, and they complete without deadlock, whatever the wrapped function does on rank 0.", "quantifier": "every function outcome (value or exception), every number of ranks", "why_tests_cant": "schedules and failures on a distributed machine", "anchors": ["py/qsonic/mpi_utils.py: mpi_fnc_bcast, mpi_parse"]}
{"id": "C13", "title": "QsonicException is raised on all ranks or on none", "statement": "In qsonic-fit a QsonicException (which ends the rank without MPI Abort) is never raised on only some of the ranks, so that no rank is left waiting in a collective call.", "quantifier": "every outcome of every local computation and file access on every rank", "why_tests_cant": "deadlocks depend on failures at particular ranks and points in time", "anchors": ["py/qsonic/scripts/qsonic_fit.py: main, mpi_run_all, mpi_read_masks", "py/qsonic/mpi_utils.py: mpi_fnc_bcast", "py/qsonic/masks.py: SkyMask"]}
{"id": "C14", "title": "All ranks perform the same continuum-fit iterations", "statement": "PiccaContinuumFitter.iterate performs at most niterations iterations, every rank performs the same number of them and issues the same sequence of collective operations, and it stops early exactly when the mean continuum update reports convergence.", "quantifier": "every distribution of spectra over ranks, every data dependent convergence, every niterations", "why_tests_cant": "control flow on each rank depends on data that is distributed", "anchors": ["py/qsonic/picca_continuum.py: PiccaContinuumFitter.iterate, update_mean_cont, fit_continua"]}
{"id": "C15", "title": "Subsampled mean is the weighted mean of all measurements", "statement": "After any sequence of add_measurement calls (weights w >= 0, xvec = w*x) SubsampleCov.get_mean equals (sum of xvec) / (sum of wvec) element by element wherever the total weight is not zero, independently of nsamples, istart and the order of the calls.", "quantifier": "every sequence of measurements, every nsamples >= 1, every istart", "why_tests_cant": "independence from call order and subsampling for unbounded histories", "anchors": ["py/qsonic/mathtools.py: SubsampleCov"]}
{"id": "C16", "title": "Subsampled mean does not depend on the MPI distribution", "statement": "If measurements are spread over ranks in any way and reduced with allreduce, every rank obtains the mean that a single process would obtain from all measurements.", "quantifier": "every partition of every multiset of measurements over any number of ranks", "why_tests_cant": "all partitions and rank counts", "anchors": ["py/qsonic/mathtools.py: SubsampleCov.allreduce, get_mean"]}
{"id": "C17", "title": "Statistics life cycle: no measurement is lost or accepted too late", "statement": "After get_mean/get_mean_n_cov/get_mean_n_var no further measurement is accepted (an error is raised and nothing changes) until reset; after reset the object behaves like a fresh one except for the rotating slot; get_mean followed by get_mean_n_cov or get_mean_n_var works.", "quantifier": "every history of API calls", "why_tests_cant": "arbitrary call histories", "anchors": ["py/qsonic/mathtools.py: SubsampleCov.add_measurement, reset, _normalize, get_mean, get_mean_n_cov, get_mean_n_var"]}
{"id": "C18", "title": "Jackknife covariance is a covariance", "statement": "The covariance returned by get_mean_n_cov is symmetric and positive semi-definite, its diagonal is the variance returned by get_mean_n_var, and in block-diagonal mode the returned blocks are the diagonal blocks of the full covariance.", "quantifier": "every accumulated state (any measurements with non-negative weights, any number of subsamples and dimensions)", "why_tests_cant": "semi-definiteness over all vectors and all data", "anchors": ["py/qsonic/mathtools.py: SubsampleCov.get_mean_n_cov, get_mean_n_var, _get_block_covariance"]}
{"id": "C19", "title": "Covariance of squares", "statement": "block_covariance_of_square returns a symmetric matrix whose diagonal is 2 var^2 + 4 mean^2 var (the same value the no-covariance branch of the variance fitter uses), and the entry of two independent quantities is zero.", "quantifier": "every mean, variance and covariance block of any dimension", "why_tests_cant": "an algebraic identity for all values", "anchors": ["py/qsonic/mathtools.py: block_covariance_of_square", "py/qsonic/picca_continuum.py: VarLSSFitter.calculate_subsampler_stats"]}
{"id": "C20", "title": "Linear interpolator is exact on nodes and never reads outside the table", "statement": "FastLinear1DInterp with a table of at least two nodes returns the table value at each node, lies on the chord between neighbouring nodes, extrapolates the end segments linearly, reproduces every affine function everywhere and only accesses indices inside the table.", "quantifier": "every table with at least two values, every step > 0 and every query point", "why_tests_cant": "continuous query space, all table sizes", "anchors": ["py/qsonic/mathtools.py: _fast_eval_interp1d_lin, FastLinear1DInterp"]}
{"id": "C21", "title": "Natural cubic spline is a C2 interpolant", "statement": "FastCubic1DInterp with natural boundary passes through all nodes and its first and second derivatives are continuous at every interior node, the second derivative vanishing at both ends.", "quantifier": "every table with at least three values, every step > 0", "why_tests_cant": "solution of a linear system of unbounded size", "anchors": ["py/qsonic/mathtools.py: _spline_cubic_natural, _fast_eval_interp1d_cubic, FastCubic1DInterp"]}
{"id": "C22", "title": "Not-a-knot cubic spline solves its continuity equations", "statement": "FastCubic1DInterp with the default not-a-knot boundary passes through all nodes, its second derivatives satisfy the spline continuity equations at interior nodes up to the rounding of the tabulated elimination constants, and its third derivative is continuous across the second and the next-to-last node.", "quantifier": "every table the constructor accepts, every step > 0", "why_tests_cant": "linear system of unbounded size solved with a truncated table of constants", "anchors": ["py/qsonic/mathtools.py: _spline_cubic_notaknot, FastCubic1DInterp"]}
{"id": "C23", "title": "Polynomial evaluation", "statement": "mypoly1d(coef, x) equals sum_i coef[i] x^i for every coefficient list.", "quantifier": "every coefficient list and argument", "why_tests_cant": "unbounded degree", "anchors": ["py/qsonic/mathtools.py: mypoly1d"]}
{"id": "C24", "title": "Spectrum construction neutralises bad pixels", "statement": "After constructing a Spectrum every pixel that was masked, had NaN flux or ivar, or negative ivar has flux 0 and ivar 0; all other pixels are untouched; no NaN and no negative ivar remains.", "quantifier": "every flux/ivar/mask array (including NaN and infinities)", "why_tests_cant": "all combinations of special values", "anchors": ["py/qsonic/spectrum.py: Spectrum.__init__"]}
{"id": "C25", "title": "Forest region selects exactly the requested pixels", "statement": "After set_forest_region an arm's forest holds exactly the pixels with max(w1,(1+z)lya1) <= wave < min(w2,(1+z)lya2), in order and with their own flux/ivar; an arm is present iff at least one of these pixels has positive ivar.", "quantifier": "every sorted wavelength grid, redshift and region limits, and any earlier history of the object", "why_tests_cant": "boundary pixels for all grids; history of the object", "anchors": ["py/qsonic/spectrum.py: Spectrum.set_forest_region"]}
{"id": "C26", "title": "Per-arm arrays stay aligned", "statement": "For every sequence of forest operations (region, masks, calibrations, smoothing, weights, coadding, dropping arms, slicing) the arms of forestwave, forestflux, forestivar, forestivar_sm and forestweight coincide and the arrays of an arm have equal lengths.", "quantifier": "every sequence of operations", "why_tests_cant": "aliasing between dictionaries makes the outcome depend on the history", "anchors": ["py/qsonic/spectrum.py: Spectrum.slice, set_forest_region, set_smooth_forestivar, set_forest_weight, coadd_arms_forest, drop_arm"]}
{"id": "C27", "title": "Wavelength masks zero exactly the masked intervals", "statement": "SkyMask and BALMask set flux and ivar to zero exactly for the pixels inside one of the masked wavelength intervals and leave all other pixels unchanged; applying them twice or in another order changes nothing.", "quantifier": "every sorted wavelength grid, every set of (overlapping) intervals, every redshift and every BAL trough table", "why_tests_cant": "all overlaps and boundary coincidences", "anchors": ["py/qsonic/masks.py: SkyMask.apply, BALMask.apply"]}
{"id": "C28", "title": "DLA correction preserves signal-to-noise and masks saturated pixels", "statement": "DLAMask zeroes the pixels whose total transmission is below the limit, divides flux by and multiplies ivar by the transmission (squared) elsewhere so that flux^2*ivar is unchanged, leaves pixels redward of Lya and spectra without DLAs unchanged, and uses exactly the DLAs catalogued for the spectrum's TARGETID.", "quantifier": "every catalog of DLAs, every transmission profile, every spectrum", "why_tests_cant": "all profiles and catalogs", "anchors": ["py/qsonic/masks.py: DLAMask.apply, DLAMask.__init__, get_all_dlas"]}
{"id": "C29", "title": "Masks never resurrect pixels", "statement": "For every sequence of masks applied to a spectrum a pixel with zero ivar keeps zero ivar, ivar never becomes negative, and after apply_masks no arm without good pixels is left.", "quantifier": "every sequence of maskers and every spectrum", "why_tests_cant": "unbounded sequences of masks", "anchors": ["py/qsonic/scripts/qsonic_fit.py: apply_masks", "py/qsonic/masks.py: SkyMask, BALMask, DLAMask", "py/qsonic/spectrum.py: Spectrum.drop_short_arms"]}
{"id": "C30", "title": "Calibrations act as documented on every pixel", "statement": "FluxCalibrator keeps flux^2*ivar; NoiseCalibrator divides the ivar by eta (plus ivar*var_lss*cont^2 in additive mode), never produces a negative ivar, and leaves masked pixels masked.", "quantifier": "every calibration vector, continuum and spectrum", "why_tests_cant": "sign conditions over all interpolated values", "anchors": ["py/qsonic/calibration.py: NoiseCalibrator, FluxCalibrator"]}
{"id": "C31", "title": "Forest weights follow the variance model", "statement": "After set_forest_weight with a valid continuum the weight w of a pixel satisfies w*C^2 = 1/(eta*var_delta + var_lss) for good pixels, is zero for masked pixels and never exceeds ivar_sm/eta nor 1/(var_lss C^2); without a valid continuum it is the smoothed ivar.", "quantifier": "every ivar, continuum, eta > 0 and var_lss >= 0", "why_tests_cant": "identity over all real values including masked pixels", "anchors": ["py/qsonic/spectrum.py: Spectrum.set_forest_weight"]}
{"id": "C32", "title": "Coadding arms is an inverse-variance average on the right pixels", "statement": "coadd_arms_forest places every pixel of every arm on the coadded pixel of its own wavelength, inside the array; with ivar weights the coadded ivar is the sum of the ivars and the flux is the ivar-weighted mean; masked pixels do not contribute; the result does not depend on the order of the arms; a single arm is unchanged.", "quantifier": "every set of arms on a common wavelength grid, every data", "why_tests_cant": "all overlaps and offsets of the arms", "anchors": ["py/qsonic/spectrum.py: Spectrum.coadd_arms_forest, simple_coadd"]}
{"id": "C33", "title": "Short-arm and short-spectrum removal thresholds", "statement": "drop_short_arms keeps an arm iff its number of good pixels exceeds the requested fraction of the forest length; remove_short_spectra keeps a spectrum iff its number of good pixels exceeds skip times the forest length; arms that survive are untouched.", "quantifier": "every spectrum, skip ratio and region", "why_tests_cant": "boundary cases for all counts", "anchors": ["py/qsonic/spectrum.py: Spectrum.drop_short_arms, is_long, get_real_size, remove_nonforest_pixels", "py/qsonic/scripts/qsonic_fit.py: remove_short_spectra"]}
{"id": "C34", "title": "The catalog redshift cut only removes quasars that would be too short anyway", "statement": "A quasar removed by the redshift limits computed by qsonic-fit has, on any wavelength grid of step dwave, fewer than skip*npix + 1 forest pixels per arm, where npix is the full forest length in pixels.", "quantifier": "every redshift, region, skip ratio and grid", "why_tests_cant": "real-valued inequality for all parameters", "anchors": ["py/qsonic/scripts/qsonic_fit.py: mpi_run_all", "py/qsonic/spectrum.py: Spectrum.is_long, set_forest_region"]}
{"id": "C35", "title": "Delta files contain finite, self-consistent values", "statement": "Spectrum.write writes delta = flux/cont - 1, ivar*cont^2 and weight*cont^2, with delta exactly 0 where the written ivar is 0, and all written values are finite for finite inputs even where the continuum is 0; reading the file back recovers the same columns and flux = (delta+1)*cont.", "quantifier": "every finite flux, ivar, weight, continuum", "why_tests_cant": "division by zero for special values", "anchors": ["py/qsonic/spectrum.py: Spectrum.write, Delta.__init__"]}
{"id": "C36", "title": "Coadding deltas", "statement": "Delta.coadd gives the weighted mean delta, a masked pixel does not influence the result (delta, ivar, weight) of the other delta, the result is on the union grid, and the result does not depend on the order of coadding.", "quantifier": "every pair/sequence of deltas on a common grid", "why_tests_cant": "order independence over all sequences", "anchors": ["py/qsonic/spectrum.py: Delta.coadd", "py/qsonic/scripts/qsonic_coadd_deltas.py: read_dirs_to_dict"]}
{"id": "C37", "title": "Coadd script keeps every sight line once", "statement": "qsonic-coadd-deltas writes each TARGETID found in the inputs exactly once, in the file of its healpix, and all deltas of the TARGETID go into it, independently of the order of files.", "quantifier": "every set of input files and order in which glob returns them", "why_tests_cant": "all groupings and orders", "anchors": ["py/qsonic/scripts/qsonic_coadd_deltas.py: read_dirs_to_dict, write_one_hpx, main"]}
{"id": "C38", "title": "Blinding decision", "statement": "Data is left unblinded only for mocks, forest regions redward of Lya or releases not later than the last unblinded date; the strategy is determined by the newest night over all ranks, is the same on all ranks, and the written column is named DELTA_BLIND iff a blinding strategy is active.", "quantifier": "every last-night value, region and distribution of quasars over ranks, every history of set_blinding calls", "why_tests_cant": "global maximum over distributed data; histories of class-level state", "anchors": ["py/qsonic/spectrum.py: Spectrum.set_blinding", "py/qsonic/scripts/qsonic_fit.py: mpi_run_all"]}
{"id": "C39", "title": "Continuum validity contract", "statement": "After fit_continuum a spectrum is either valid with a continuum for every forest arm, non-negative everywhere (positive for input continua), chi2 >= 0 and refreshed weights, or invalid with no continuum, chi2 = -1 and unchanged fit parameters.", "quantifier": "every minimizer outcome, mean continuum and spectrum", "why_tests_cant": "the minimizer is an arbitrary oracle", "anchors": ["py/qsonic/continuum_models/picca_continuum_model.py: PiccaContinuumModel.fit_continuum", "py/qsonic/continuum_models/input_continuum_model.py: InputContinuumModel.fit_continuum"]}
{"id": "C40", "title": "Input continua are attached to their own quasar", "statement": "After InputContinuumModel.init_spectra a spectrum is valid iff its TARGETID occurs in the file of its healpix and then its input continuum is the row of that TARGETID.", "quantifier": "every list of spectra in any order, every set of files", "why_tests_cant": "all orders and missing subsets", "anchors": ["py/qsonic/continuum_models/input_continuum_model.py: _read_continua, _find_append_continuum"]}
{"id": "C41", "title": "Stacked flux is the weighted mean in each bin", "statement": "FluxStacker returns in each observed wavelength bin the weighted mean of flux/continuum over all pixels of all spectra of all ranks that lie in the bin (0 for empty bins); every forest pixel falls in a valid bin.", "quantifier": "every set of spectra, binning and MPI distribution", "why_tests_cant": "all distributions and boundary pixels", "anchors": ["py/qsonic/picca_continuum.py: FluxStacker, _fast_weighted_vector_bincount"]}
{"id": "C42", "title": "Variance statistics count every pixel in its own bin", "statement": "VarLSSFitter.add assigns each pixel to the bin whose wavelength and variance limits contain it; masked pixels never enter a valid bin; the number of pixels over all bins equals the number of pixels added; the per-wavelength slices returned for fitting address exactly the bins of that wavelength.", "quantifier": "every pixel set, bin configuration and MPI distribution", "why_tests_cant": "index arithmetic for all sizes", "anchors": ["py/qsonic/picca_continuum.py: VarLSSFitter.add, fit, wvalid_bins"]}
{"id": "C43", "title": "Variance fit failure policy", "statement": "VarLSSFitter.fit raises iff more than 40% of the wavelength bins fail; otherwise it returns one result per bin, where failed bins carry the interpolation of successful ones; all ranks take the same decision.", "quantifier": "every pattern of failures and number of bins", "why_tests_cant": "all failure patterns", "anchors": ["py/qsonic/picca_continuum.py: VarLSSFitter.fit"]}
{"id": "C44", "title": "Mean continuum normalisation", "statement": "After _project_normalize_meancont the mean continuum has unit average in log wavelength (with respect to the quadrature used) and applying it twice gives the same continuum as applying it once.", "quantifier": "every mean continuum and every linear quadrature", "why_tests_cant": "identity for all functions", "anchors": ["py/qsonic/picca_continuum.py: PiccaContinuumFitter._project_normalize_meancont"]}
{"id": "C45", "title": "Convergence criterion", "statement": "If update_mean_cont reports convergence, every point of the mean continuum changed by less than 0.33 of its error.", "quantifier": "every update and error vector of any length", "why_tests_cant": "numbers of bins and values unbounded", "anchors": ["py/qsonic/picca_continuum.py: PiccaContinuumFitter.update_mean_cont"]}
{"id": "C46", "title": "Smoothing keeps the mask", "statement": "get_smooth_ivar returns 0 exactly where the input ivar is not positive, returns the original ivar on error outliers, and has the length of the input, for every smoothing kernel result.", "quantifier": "every ivar array and every smoothing outcome", "why_tests_cant": "all masks and outlier patterns", "anchors": ["py/qsonic/mathtools.py: get_smooth_ivar"]}
{"id": "C47", "title": "Fiducial variance is what goes into the weights", "statement": "When a fiducial var_lss is given, the final weights written to delta files are computed from the fiducial var_lss, and the var_lss/eta fitted for reporting at the end do not go into weights.", "quantifier": "every combination of coadd/noise options", "why_tests_cant": "combination of options over the whole pipeline", "anchors": ["py/qsonic/picca_continuum.py: PiccaContinuumFitter.iterate, fit_final_varlss", "py/qsonic/scripts/qsonic_fit.py: mpi_continuum_fitting"]}
{"id": "C48", "title": "Written weights are consistent with the written ivar and continuum", "statement": "For every option combination accepted by qsonic-fit (eta calibration of ivar, stacked flux normalisation, coadding before/after) the written WEIGHT equals 1/(eta*var + var_lss) for the written IVAR (unsmoothed case), with eta applied exactly once.", "quantifier": "every option combination and pixel value", "why_tests_cant": "interaction of independent options", "anchors": ["py/qsonic/picca_continuum.py: PiccaContinuumFitter._normalize_flux, _eta_calibate_ivar", "py/qsonic/scripts/qsonic_fit.py: mpi_continuum_fitting", "py/qsonic/spectrum.py: Spectrum.write"]}
{"id": "C49", "title": "Exposures inherit the continuum of their quasar pixel by pixel", "statement": "In mpi_read_exposures_after every saved exposure has, at every pixel, the continuum its quasar's coadded spectrum has at the same wavelength, and all its arrays are trimmed to the coadd's wavelength range.", "quantifier": "every offset between exposure and coadd grids and every set of arms", "why_tests_cant": "all overlaps; dictionary mutation during iteration", "anchors": ["py/qsonic/scripts/qsonic_fit.py: mpi_read_exposures_after", "py/qsonic/spectrum.py: Spectrum.slice, drop_arm"]}
{"id": "C50", "title": "Argument combinations that cannot work are rejected", "statement": "args_logic_fnc accepts a combination of options iff it satisfies the documented constraints (skip range, true-continuum needs mock analysis and fiducials, tile format excludes healpix output, input continuum needs a directory); range-checked options only accept values inside their range.", "quantifier": "every combination of option values (including NaN)", "why_tests_cant": "all option combinations", "anchors": ["py/qsonic/scripts/qsonic_fit.py: args_logic_fnc", "py/qsonic/io.py: _float_range"]}
{"id": "C51", "title": "Wavelength grid consistency", "statement": "All Spectrum objects share one wavelength grid per arm with a single step; constructing spectra with check_consistency=True fails if the grid differs from the first one.", "quantifier": "every history of spectrum constructions", "why_tests_cant": "class-level state depends on history", "anchors": ["py/qsonic/spectrum.py: Spectrum._set_wave, generate_spectra_list_from_data"]}
{"id": "C52", "title": "Effective signal-to-noise", "statement": "get_effective_meansnr lies between 0 and the largest per-arm mean S/N, is independent of the order of arms, and equals the S/N of a single arm up to the 1e-8 regularisation.", "quantifier": "every set of arms with non-negative S/N", "why_tests_cant": "real-valued inequality over any number of arms", "anchors": ["py/qsonic/spectrum.py: Spectrum.get_effective_meansnr"]}
{"id": "C53", "title": "Outlier mask", "statement": "get_median_outlier_mask flags a pixel iff its ivar is zero or its deviation from the running median exceeds esigma times the larger of pixel noise and scaled MAD.", "quantifier": "every flux, ivar, window and threshold", "why_tests_cant": "threshold equivalence over all values", "anchors": ["py/qsonic/mathtools.py: get_median_outlier_mask"]}
{"id": "C54", "title": "End to end: what a run writes", "statement": "Every delta a finished qsonic-fit run writes is a valid spectrum of a quasar of the catalog inside the redshift limits and requested surveys; no quasar is written by two ranks; no file is written by two ranks (tile-grouped data saved by healpix excepted).", "quantifier": "every catalog, command line, number of ranks, and every outcome of the file accesses and numerical routines on each rank", "why_tests_cant": "depends on the composition of all stages on all ranks, for every partition of the catalog", "anchors": ["py/qsonic/scripts/qsonic_fit.py: mpi_run_all, mpi_read_calibrate_mask_select_spectra, mpi_continuum_fitting, mpi_read_exposures_after", "py/qsonic/catalog.py: mpi_get_local_queue", "py/qsonic/io.py: save_deltas"]}
{"id": "C55", "title": "qsonic-calib: ends, and uses exactly the wanted sight lines", "statement": "A qsonic-calib run never leaves a rank waiting, and with readable input it finishes and writes one file, from exactly the deltas that are not removed (by the TARGETID list, as a BAL of the catalog, or by survey) and have MEANSNR between the limits, for every division of the files over ranks.", "quantifier": "every command line, removal list, catalog, set of delta files, number of ranks and outcome of the file accesses on each rank", "why_tests_cant": "the removal rules combine; idle ranks and one-line lists only show up in particular runs", "anchors": ["py/qsonic/scripts/qsonic_calib.py: mpi_set_targetid_list_to_remove, mpi_read_all_deltas, mpi_run_all"]}
{"id": "C56", "title": "qsonic-calib: variance statistics are those of the whole sample", "statement": "VAR_STATS and VAR_FUNC of the output file are the variance statistics and the fit of all pixels of the wanted deltas of all ranks, as if one process had them all.", "quantifier": "every sample, division over ranks, binning and outcome of the curve fits", "why_tests_cant": "reductions over any number of ranks; binning equalities over all values", "anchors": ["py/qsonic/scripts/qsonic_calib.py: mpi_run_all", "py/qsonic/picca_continuum.py: VarLSSFitter"]}
{"id": "C57", "title": "qsonic-calib: stacked flux is the weighted mean flux", "statement": "STACKED_FLUX has at every wavelength the weighted mean of 1 + delta over the pixels of the sample in the bin around this wavelength (0 without weight).", "quantifier": "every sample, pixel grid, wavelength range and division over ranks", "why_tests_cant": "rounding of pixel positions and labels over all grids", "anchors": ["py/qsonic/scripts/qsonic_calib.py: mpi_stack_fluxes"]}
{"id": "C58", "title": "var_lss and eta tables belong to the spectra of the run", "statement": "When the continuum fit has finished, the var_lss (and eta) tables of every rank are the variance fit to delta = flux/continuum - 1 with inverse variance ivar*continuum^2 of the valid spectra of all ranks, with the continua that are returned.", "quantifier": "every set of spectra, division over ranks, number of iterations and outcome of the numerical routines", "why_tests_cant": "the tables pass through reset, accumulation over ranks and in-place updates in every iteration; a stale or local quantity would look plausible", "anchors": ["py/qsonic/picca_continuum.py: PiccaContinuumFitter.update_var_lss_eta, iterate, fit_final_varlss", "py/qsonic/scripts/qsonic_fit.py: mpi_continuum_fitting"]}
{"id": "C59", "title": "The continuum fit maximises the likelihood of the unmasked pixels only", "statement": "The function that the continuum fit of a quasar minimizes is, at every set of parameters, chi2 minus the sum of the logarithms of the weights, where continuum, weights and chi2 are those that the spectrum gets if these parameters are accepted; so the stored chi2 and weights reproduce the minimized cost. The flux values of pixels whose smoothed inverse variance is zero influence nothing: with any other finite fluxes there, the fit ends the same way, with the same parameters, covariance, continuum, weights and chi2.", "quantifier": "all spectra (arms, pixels, redshifts, masks), all var_lss, eta, mean flux and mean continuum functions, all polynomial coefficients, every minimizer that looks only at the values of the function it is given", "why_tests_cant": "the minimizer evaluates the cost at points no test chooses, and the equality of the cost used inside the fit with the weights computed after it is between two separate pieces of code; a test compares a few spectra", "anchors": ["py/qsonic/continuum_models/picca_continuum_model.py:PiccaContinuumModel._continuum_costfn", "py/qsonic/continuum_models/picca_continuum_model.py:PiccaContinuumModel._iminuit_minimizer", "py/qsonic/continuum_models/picca_continuum_model.py:PiccaContinuumModel._scipy_l_bfgs_b_minimizer", "py/qsonic/spectrum.py:Spectrum.set_forest_weight", "py/qsonic/spectrum.py:Spectrum.calc_continuum_chi2"]}
{"id": "C60", "title": "DLA transmission is a transmission", "statement": "For every sight line, list of DLAs and wavelength, the transmission by which fluxes are divided lies in (0, 1]. It does not depend on the order of the DLAs, is lowered at every wavelength by each further DLA and by a larger column density, and outside of the lines of all DLAs (redwards of Lyman alpha, bluewards of Lyman beta) it grows with the distance, so that masking by a transmission limit masks a connected wing.", "quantifier": "all real wavelengths, all lists of DLAs with redshift above -1 and any column density", "why_tests_cant": "the Tepper-Garcia formula is a difference of an exponential and a correction that changes sign; that it stays positive and monotone is a fact about all reals, not about sampled ones", "anchors": ["py/qsonic/masks.py:DLAMask.H_tepper_garcia, voigt_tepper_garcia, get_optical_depth, get_dla_flux, get_all_dlas"]}
{"id": "C61", "title": "The chi2 catalog lists every fitted quasar once, with its own values", "statement": "If an output directory is given, the run writes one table of the continuum fits, on the first rank only. It has exactly one row for each spectrum that went into the fit, valid or not, of each rank, in the order of ranks and spectra. The row has the TARGETID, redshift, pixel, arms with their signal-to-noise, rank, validity, chi2, parameters and covariance (row by row) of that spectrum; chi2 is -1 if the continuum is invalid. The fit leaves only spectra for which such a row can be filled (at most three arms), and no rank waits forever, also if a row or the file cannot be written.", "quantifier": "all numbers of ranks, lists of spectra per rank, numbers of parameters and arms; every continuum model and minimizer, any number of iterations", "why_tests_cant": "gathering over ranks and the assignment of vectors to fixed-size fields depend on the sizes and the division of the sample; a test has one division and one order", "anchors": ["py/qsonic/picca_continuum.py:PiccaContinuumFitter.save_contchi2_catalog", "py/qsonic/continuum_models/picca_continuum_model.py:PiccaContinuumModel.fit_continuum, init_spectra", "py/qsonic/continuum_models/input_continuum_model.py:InputContinuumModel.fit_continuum", "py/qsonic/continuum_models/true_continuum_model.py:TrueContinuumModel.fit_continuum"]}
{"id": "C62", "title": "Coadding averages resolution matrices diagonal by diagonal", "statement": "After coadding the arms (of the forest, or of the full spectrum) the resolution matrix of the coadded spectrum has one column per coadded pixel and as many diagonals as the widest matrix of the arms. Each column is, for each offset from the main diagonal, the weighted mean of the columns of the arm pixels that land on this coadded pixel (forest: pixel weights, full spectrum: inverse variances; 1e-8 for pixels without weight), matrices with fewer diagonals counting as zero outside; columns with the same sum are coadded into a column with this sum. A coadded pixel that no arm covers gets nan.", "quantifier": "all spectra with uniform arms, any number of arms, pixels and diagonals (of equal parity), all nonnegative weights, all finite matrices", "why_tests_cant": "padding and index arithmetic depend on the numbers of diagonals and on the offset of the arms; tests have one or two shapes", "anchors": ["py/qsonic/spectrum.py:Spectrum.coadd_arms_forest", "py/qsonic/spectrum.py:Spectrum.simple_coadd"]}
{"id": "C63", "title": "Reported signal-to-noise values are those of the unmasked pixels", "statement": "RSNR is the sum of flux times the square root of inverse variance over the unmasked pixels redwards of Lyman alpha in the quasar frame, over their number plus 1e-6. MEANSNR of each arm of a forest is the mean of flux times the square root of inverse variance over the unmasked pixels of this arm of the forest, and there is at least one; after coadding it is the same mean over the coadded pixels. The first guess of the continuum amplitude is the inverse variance weighted mean flux of the forest pixels with positive flux (1e-6 added to the sum of weights).", "quantifier": "all spectra (arms, pixels, masks, redshifts), all forest limits", "why_tests_cant": "masked pixels must drop from both numerator and count for every mask and every position of the line; tests have one mask", "anchors": ["py/qsonic/spectrum.py:Spectrum._set_rsnr, set_forest_region, _set_forest_related_parameters, coadd_arms_forest"]}
{"id": "C64", "title": "MEANRESO is the width of the line spread function", "statement": "If the resolution matrix of an arm consists of Gaussians of any heights, with at least two diagonals on each side of the main one, the mean resolution reported for this arm is a width (in km/s at the weighted mean wavelength) between the smallest and the largest width of the pixels with weight, hence exact for constant width. It depends only on the ratios of the weights and not on finite entries of pixels without weight. A column of nan makes it nan; with less than two diagonals above the main one it raises.", "quantifier": "all numbers of pixels and diagonals, all nonnegative weights, heights, widths and wavelengths", "why_tests_cant": "the width is estimated from logarithms of ratios of averaged Gaussians; that this never leaves the range of the widths is an inequality over all reals", "anchors": ["py/qsonic/spectrum.py:Spectrum.mean_resolution"]}
{"id": "C65", "title": "Noise smoothing is a moving average", "statement": "The Gaussian smoothing of the pixel noise is, for each array length, a moving average of the array continued by its edge values, with symmetric weights that depend only on the distance and add up to one. So it keeps the length and constant arrays, and is linear; a spectrum with the same inverse variance at all unmasked pixels keeps it. As documented, its scale is the standard deviation in pixels.", "quantifier": "all array lengths, values and scales", "why_tests_cant": "it is done by Fourier transforms of padded arrays; the identities hold for all lengths, even and odd, only by orthogonality of the waves", "anchors": ["py/qsonic/mathtools.py:fft_gaussian_smooth, get_smooth_ivar"]}
{"id": "C66", "title": "Which spectra take part", "statement": "The spectra a rank keeps after reading are exactly the ones it read, in order, that have an unmasked pixel inside the requested forest and whose RSNR is at least the requested minimum (a value equal to the minimum is kept). Identity and RSNR of a spectrum never change afterwards, whatever is done to it, so the RSNR in the outputs is the one selected by.", "quantifier": "all catalogs, spectra, cuts and sequences of operations on a spectrum", "why_tests_cant": "the selection is made on derived containers after cutting; which pixels survive depends on the values, and the history of operations is unbounded", "anchors": ["py/qsonic/scripts/qsonic_fit.py:mpi_read_spectra_local_queue", "py/qsonic/spectrum.py:Spectrum.set_forest_region, remove_nonforest_pixels, rsnr"]}
{"id": "C67", "title": "Calibration tables are used at their own wavelengths", "statement": "Reading a fiducial mean flux, fiducial var_lss, flux calibration or noise calibration table raises unless the wavelengths are equally spaced; then every tabulated value (zero meaning no correction, for eta and stacked flux) is what is used at its own wavelength, also for the VAR_FUNC table a fit has written, and the flux correction stays positive where the table does.", "quantifier": "all tables, numbers of rows, wavelengths and values", "why_tests_cant": "only two wavelengths and the values are kept; the rest of the wavelengths is reconstructed from them, so the claim is about every row of every table, and small deviations add up along the table", "anchors": ["py/qsonic/picca_continuum.py:PiccaContinuumFitter._get_fiducial_interp", "py/qsonic/calibration.py:NoiseCalibrator._read, FluxCalibrator._read", "py/qsonic/mathtools.py:FastLinear1DInterp, FastCubic1DInterp"]}
{"id": "C68", "title": "attributes.fits records what went into each iteration", "statement": "The attribute file has, for each iteration that was run, the numbered extensions CONT, STACKED_FLUX, STACKED_FLUX_RF and (if they are fitted) VAR_FUNC, then the same without number, then VAR_STATS, all with different names; only the first rank writes it. The extensions with number k hold the mean continuum and the variance functions that the continuum fits of iteration k used, starting from one, 0.1 and one. As documented, the second to last CONT and VAR_FUNC extensions are what went into the last fits and the last ones are the new values.", "quantifier": "all spectra on all ranks, numbers of ranks and iterations, options and results of the numerical routines, convergence at any iteration", "why_tests_cant": "the file is written before each fit and the tables are updated in place after it; which set belongs to which fit must hold for every number of iterations and point of convergence", "anchors": ["py/qsonic/picca_continuum.py:PiccaContinuumFitter.iterate, save, fit_continua, update_mean_cont, update_var_lss_eta", "py/qsonic/mpi_utils.py:MPISaver", "docs/howitworks.rst"]}
{"id": "C69", "title": "Results do not depend on the number of MPI ranks", "statement": "The same spectra, distributed in any way over any number of ranks, give the same continua, weights and chi2, the same convergence history, mean continuum and stacked fluxes as on any other number of ranks, whenever both runs finish.", "quantifier": "all spectra, numbers of ranks, distributions over the ranks, options, numbers of iterations and results of the numerical routines", "why_tests_cant": "which spectra share a rank depends on the catalog and the machine; independence must hold for every split, and tests run with one rank", "anchors": ["py/qsonic/picca_continuum.py:PiccaContinuumFitter.iterate, fit_continua, update_mean_cont, FluxStacker", "py/qsonic/picca_continuum.py:VarLSSFitter", "py/qsonic/mathtools.py:SubsampleCov", "py/qsonic/scripts/qsonic_fit.py:mpi_continuum_fitting"]}
{"id": "C70", "title": "Nothing that takes part is lost", "statement": "In a finished run every quasar of the catalog is in the queue of exactly one rank. Of the spectra a rank reads, those with a forest and enough RSNR are calibrated and masked; of these, exactly those with more good pixels than the skip fraction of the forest and with enough mean S/N are fitted; none of them is dropped or repeated by the fit; and exactly those with a valid continuum, each once, are in the delta files of the rank. Each of these has at least one arm in its file.", "quantifier": "all catalogs, spectra, masks, calibrations, cuts, numbers of ranks and iterations, and results of the numerical routines (exposures not re-read after the fit)", "why_tests_cant": "the spectra pass through a dozen filters on different ranks, each with its own criterion; a test only sees the ones it has chosen", "anchors": ["py/qsonic/scripts/qsonic_fit.py:mpi_run_all, mpi_read_spectra_local_queue, mpi_continuum_fitting", "py/qsonic/spectrum.py:Spectrum.drop_short_arms, is_long, write", "py/qsonic/io.py:save_deltas", "py/qsonic/picca_continuum.py:PiccaContinuumFitter.iterate"]}
{"id": "C71", "title": "Only requested, unmasked pixels carry weight", "statement": "Every row of every table in the delta files of a finished run is at a wavelength inside the requested observed range and inside the requested forest of its quasar. A row at a wavelength that the sky mask, the BAL troughs or the DLAs of the quasar take out has zero IVAR and zero WEIGHT (nan if a calibration factor is zero), and DELTA 0, whatever calibration, smoothing, fitting and additive noise did in between.", "quantifier": "all catalogs, spectra, masks, calibrations, numbers of ranks and iterations, options and results of the numerical routines (masks: exposures not re-read after the fit; arms on one grid if they are coadded after it)", "why_tests_cant": "between the mask and the file the arrays are smoothed, calibrated, re-weighted, aliased and sliced many times; that none of these steps brings a pixel back must hold for every value and every number of iterations", "anchors": ["py/qsonic/scripts/qsonic_fit.py:mpi_run_all", "py/qsonic/masks.py:SkyMask, BALMask, DLAMask", "py/qsonic/spectrum.py:Spectrum.set_forest_region, set_smooth_forestivar, set_forest_weight, coadd_arms_forest, write", "py/qsonic/calibration.py:NoiseCalibrator.apply", "py/qsonic/picca_continuum.py:PiccaContinuumFitter.iterate"]}
{"id": "C72", "title": "The deltas are those of the spectra that were read", "statement": "Without exposures after the fit and without coadding after the fit, every HDU in the delta files of a finished run belongs to one spectrum that its rank has read, with the same catalog entry. Its rows are all pixels of that arm in the requested window, in their order; or, if arms are coadded before the fit, the inverse variance weighted averages of the pixels of all arms in the window, on the grid from the smallest to the largest of their wavelengths. In each row with an unmasked pixel DELTA is F / CONT - 1 (0 if IVAR is 0), where F is the flux that was read, divided by the flux calibration and by the transmission of the DLAs of the quasar; and IVAR is I CONT^2, where I is the inverse variance that was read with the noise calibration and the same two factors, unless eta calibration or additive noise was requested.", "quantifier": "all catalogs, spectra, masks, calibration files, numbers of ranks and iterations, continua, options and results of the numerical routines (no coadding after the fit, exposures not re-read after the fit; for the coadd, finite data and arms with pixels of the common step)", "why_tests_cant": "a value passes through reading, two calibrations, three masks, up to dozens of fit iterations and the writer, on arrays that are aliased and modified in place; that no step applies a factor twice, skips it or shifts the pixels must hold for every spectrum and every combination of options", "anchors": ["py/qsonic/scripts/qsonic_fit.py:mpi_run_all, mpi_read_spectra_local_queue, mpi_noise_flux_calibrate, mpi_continuum_fitting", "py/qsonic/spectrum.py:Spectrum.set_forest_region, write", "py/qsonic/calibration.py:NoiseCalibrator.apply, FluxCalibrator.apply", "py/qsonic/masks.py:DLAMask.apply", "py/qsonic/picca_continuum.py:PiccaContinuumFitter.iterate"]}
{"id": "C73", "title": "One weight formula for the whole survey", "statement": "In a finished run without smoothing of the inverse variance, without exposures after the fit, and either without the rescalings after the last fit (stacked flux normalisation, eta calibration) or with weights computed again afterwards (additive noise, coadding after the fit), there is one var_lss(lambda) and one eta(lambda), the same for all quasars on all ranks, such that every row with positive IVAR and a finite WEIGHT other than zero has WEIGHT = 1 / (eta / IVAR + var_lss) at its wavelength. If the run was given a fiducial var_lss and neither adds noise nor coadds after the fit, var_lss is the one of that file and eta is one.", "quantifier": "all catalogs, spectra, masks, calibration files, numbers of ranks and iterations, continua, options and results of the numerical routines", "why_tests_cant": "the weights of each quasar are computed on its own rank, from interpolators that are refitted in every iteration on all ranks, and are shared, aliased and cut afterwards; that all rows of all files follow the same two functions must hold for every distribution of the quasars and every number of iterations", "anchors": ["py/qsonic/scripts/qsonic_fit.py:mpi_run_all, mpi_continuum_fitting", "py/qsonic/picca_continuum.py:PiccaContinuumFitter.iterate, fit_continua, update_var_lss_eta, _get_fiducial_interp", "py/qsonic/spectrum.py:Spectrum.set_forest_weight, set_smooth_forestivar, drop_short_arms, write"]}
{"id": "C74", "title": "The weights can be computed from attributes.fits", "statement": "After a continuum fit that finished, with an output directory and at least one iteration, attributes.fits holds the var_lss and eta of the weights: for spectra without smoothing, WEIGHT = 1/(eta/IVAR + var_lss) in every pixel with positive IVAR, for the spectra of all ranks, where var_lss and eta interpolate two columns of one VAR_FUNC extension on its wavelength column (eta = 1 with the true continuum). If var_lss is fitted and nothing changes the spectra after the last fit, it is the second to last VAR_FUNC extension; if the weights are computed again afterwards (additive noise, coadding after the fit, also with a fiducial var_lss), it is the last one.", "quantifier": "all local spectra, numbers of ranks and iterations, options and results of the numerical routines", "why_tests_cant": "the tables are reassigned in place by all ranks in each iteration and written by one of them, before or after they are used; that the written version is the one in the weights of every rank must hold for every history of the iterations", "anchors": ["py/qsonic/picca_continuum.py:PiccaContinuumFitter.iterate, save, update_var_lss_eta, fit_final_varlss, VarLSSFitter.construct_interp", "py/qsonic/scripts/qsonic_fit.py:mpi_continuum_fitting", "py/qsonic/spectrum.py:Spectrum.set_forest_weight, coadd_arms_forest", "docs/source/howitworks.rst"]}
{"id": "C75", "title": "The chi2 catalog of a run agrees with its delta files", "statement": "After a continuum fit that finished, with an output directory and at least one iteration, the catalog has one row for every local quasar of every rank, in the order of the ranks and of their lists, with its TARGETID, redshift, HPXPIXEL and rank. CONT_dof is the number of unmasked pixels less the number of fitted parameters; CONT_chi2 is -1 without a valid continuum. The rows with a valid continuum are, in order, those of the spectra whose deltas are written, and their CONT_chi2 is the sum of WEIGHT DELTA^2 over the rows of all HDUs of the quasar in the delta file.", "quantifier": "all local spectra, numbers of ranks and iterations, options and results of the numerical routines (the sum: no smoothing of the inverse variance, all arms written, finite columns, zero continuum only where IVAR is zero)", "why_tests_cant": "the columns are set at different times (before the first iteration, in the last fit, after coadding) on objects shared by two lists, and gathered from all ranks; that they describe what is finally written must hold for every history of the fit", "anchors": ["py/qsonic/picca_continuum.py:PiccaContinuumFitter.save_contchi2_catalog, iterate", "py/qsonic/spectrum.py:Spectrum.calc_continuum_chi2, coadd_arms_forest, write", "py/qsonic/scripts/qsonic_fit.py:mpi_continuum_fitting", "py/qsonic/continuum_models/picca_continuum_model.py:PiccaContinuumModel.init_spectra"]}
{"id": "C76", "title": "The continuum of every quasar can be computed from attributes.fits and the chi2 catalog", "statement": "After a continuum fit that finished (picca continuum model, output directory, at least one iteration, arms not coadded after the fit) the continuum of every spectrum that is returned on any rank is, in every pixel of its forest, the product of mean_cont in the extension CONT-k of attributes.fits, where k is the number of the last iteration, at the rest-frame wavelength of the pixel; of the polynomial in the logarithmic wavelength variable whose coefficients are CONT_x of the row of this quasar in the chi2 catalog; of the mean flux of the run; and, with flux normalisation, of stacked_flux in the extension STACKED_FLUX. CONT-k and STACKED_FLUX are found under these names, and their wavelength columns are those of the tables. The extension CONT without a number is not this table: it is the mean continuum after the last update, with which nothing has been fitted.", "quantifier": "all local spectra, numbers of ranks and iterations, options, input tables and results of the numerical routines (a valid fit returns cont_order + 1 coefficients)", "why_tests_cant": "the mean continuum changes after each round of fits and the file has one table more than there were fits; which table and which coefficients belong to the continua that are finally written depends on the history of the fit, on convergence and on what is done to the spectra after it, on all ranks", "anchors": ["py/qsonic/picca_continuum.py:PiccaContinuumFitter.iterate, save, save_contchi2_catalog, update_mean_cont, _normalize_flux", "py/qsonic/continuum_models/picca_continuum_model.py:PiccaContinuumModel.fit_continuum, get_continuum_model", "py/qsonic/scripts/qsonic_fit.py:mpi_continuum_fitting"]}
{"id": "C77", "title": "Uninitialised memory reaches no result but CONT in masked pixels of gaps", "statement": "What the memory that np.empty returns holds has no influence on how a run of qsonic-fit ends and on its delta files and chi2 values, unless the arms are coadded after the fit. With arms coadded after the fit (and no exposures read after it), as long as the contents are finite numbers, two runs that find different contents end the same way, with the same files, the same HDUs and headers, chi2 and coefficients, the same rows of the chi2 catalog, and the same columns LAMBDA, DELTA, IVAR, WEIGHT and RESOMAT; CONT differs at most in pixels with DELTA = IVAR = 0, those of gaps between the arms. If the arms of a spectrum leave no gap, the coadd does not depend on the contents at all. Contents that are nan or infinite spoil the gaps: DELTA, IVAR and WEIGHT there, and chi2, become nan.", "quantifier": "all inputs, numbers of ranks, options and results of the numerical routines; any two contents of the memory (smoothing keeps masked pixels masked)", "why_tests_cant": "a test sees whatever the allocator returns, usually zeros; that no other value could change a result must hold for all contents, and through all later steps that read the array", "anchors": ["py/qsonic/spectrum.py:Spectrum.coadd_arms_forest, calc_continuum_chi2, write", "py/qsonic/scripts/qsonic_fit.py:mpi_run_all, mpi_continuum_fitting", "py/qsonic/picca_continuum.py:PiccaContinuumFitter.save_contchi2_catalog"]}
{"id": "C78", "title": "Coefficients and covariance of a row of the chi2 catalog are from one fit", "statement": "After a continuum fit with the picca model that finished (output directory, at least one iteration), CONT_x and CONT_xcov of every row of the chi2 catalog are the minimum and the covariance that one and the same successful call of the minimizer returned for this quasar; or, only in rows with CONT_valid = false, the values before the first fit (the amplitude set on reading and zeros, and the identity matrix). Additive noise, flux and noise calibration and coadding after the fit change neither. A row with CONT_valid = false need not have the values before the first fit: if an earlier fit succeeded, its coefficients and covariance stay.", "quantifier": "all local spectra, numbers of ranks and iterations, options, input tables and results of the numerical routines (a successful minimisation returns cont_order + 1 coefficients and a square matrix)", "why_tests_cant": "a fit that fails in a later iteration leaves the dictionary of the quasar partly updated; which fit the numbers in the catalog are from depends on the whole history of successes and failures", "anchors": ["py/qsonic/continuum_models/picca_continuum_model.py:PiccaContinuumModel.fit_continuum, init_spectra", "py/qsonic/picca_continuum.py:PiccaContinuumFitter.iterate, fit_continua, save_contchi2_catalog", "py/qsonic/scripts/qsonic_fit.py:mpi_continuum_fitting"]}
{"id": "C79", "title": "num_qso of the variance statistics bounds the number of quasars", "statement": "After the arms of the quasars of all ranks have been added one by one to the variance fitter, num_qso of every bin is, on every rank, at least the number of quasars with a pixel in the bin; at most m times this number if no quasar has more than m arms with pixels in the bin, hence exact for coadded arms; and larger than it as soon as one quasar has two such arms. So the threshold min_num_qso may be passed by fewer quasars.", "quantifier": "all samples, divisions over ranks and binnings", "why_tests_cant": "counts over any number of quasars, arms and ranks; a test with one arm per quasar cannot see the difference", "anchors": ["py/qsonic/picca_continuum.py:VarLSSFitter.add, calculate_subsampler_stats, num_qso", "py/qsonic/picca_continuum.py:PiccaContinuumFitter.update_var_lss_eta"]}
{"id": "C80", "title": "Signal-to-noise ratios of a run are those of the pixels used", "statement": "The mean signal-to-noise ratios (MEANSNR) of the spectra in the delta files, with which --min-forestsnr is compared, are those of the unmasked pixels that are fitted and written, that is after calibration and masks. As the code is, they are those of the forest as read, whatever is calibrated or masked later; the two agree for the selected spectra without calibrations and masks.", "quantifier": "all finished runs (any number of ranks, options, catalogs, mask files and calibrations) with arms that are not coadded", "why_tests_cant": "the attribute is computed once and must be followed through calibration, masks, selection, every iteration of the fit and writing", "anchors": ["py/qsonic/spectrum.py:Spectrum._set_forest_related_parameters, get_effective_meansnr, set_forest_region, write", "py/qsonic/scripts/qsonic_fit.py:mpi_read_calibrate_mask_select_spectra, mpi_run_all", "py/qsonic/masks.py:SkyMask.apply, BALMask.apply, DLAMask.apply"]}
