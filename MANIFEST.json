{"claims": [
  {"property": "C01", "status": "proved", "theorems": ["C01_balance_load_partition"], "note": ""},
  {"property": "C02", "status": "proved", "theorems": ["C02_loads_differ_by_at_most_one_catalog", "C02_no_idle_rank", "C02_close_to_average", "C02_no_move_improves"], "note": ""},
  {"property": "C03", "status": "proved", "theorems": ["C03_every_quasar_to_one_rank", "C03_unreadable_catalog_fails_everywhere"], "note": ""},
  {"property": "C04", "status": "partial", "theorems": ["C04_healpix_files_disjoint", "C04_tile_queues_refuted"], "note": "Proved for healpix-grouped queues; false for tile-grouped queues (C04_tile_queues_refuted), a combination the argument logic of qsonic-fit rejects."},
  {"property": "C05", "status": "proved", "theorems": ["C05_save_by_healpix", "C05_save_by_rank", "C05_refuses_before_blinding", "C05_no_output_directory"], "note": ""},
  {"property": "C06", "status": "proved", "theorems": ["C06_catalog_filter", "C06_succeeds_iff"], "note": ""},
  {"property": "C07", "status": "partial", "theorems": ["C07_own_survey_file_partial", "C07_keep_all_surveys_refuted", "C07_exposures_after_refuted", "C07_keep_all_surveys_crash_refuted"], "note": "Proved when surveys are selected (keep_surveys given). False with keep_surveys=None and for the exposures re-read after coadding: the catalog is not sorted by SURVEY there."},
  {"property": "C08", "status": "proved", "theorems": ["C08_coadd_reader_alignment", "C08_tile_reader_alignment", "C08_mock_reader_alignment"], "note": ""},
  {"property": "C09", "status": "proved", "theorems": ["C09_exposure_reader_alignment"], "note": ""},
  {"property": "C10", "status": "partial", "theorems": ["C10_resolution_alignment_partial", "C10_missing_quasar_refuted"], "note": "Proved when every requested quasar is in the file; otherwise the matrices shift (C10_missing_quasar_refuted)."},
  {"property": "C11", "status": "partial", "theorems": ["C11_files_read", "C11_partition_partial", "C11_all_files_read_refuted"], "note": "C11_files_read is the exact set of files read; all files are read iff the count is a multiple of mpi_size or at most mpi_size; the remainder is lost otherwise (C11_all_files_read_refuted)."},
  {"property": "C12", "status": "partial", "theorems": ["C12_fnc_bcast_all_or_none", "C12_parse_all_or_none", "C12_system_exit_refuted"], "note": "Proved for every exception except SystemExit raised inside the wrapped function, for which the other ranks wait forever (C12_system_exit_refuted)."},
  {"property": "C13", "status": "partial", "theorems": ["C13_run_all_partial", "C13_sky_mask_refuted"], "note": "Refuted as stated: mpi_read_masks builds SkyMask without comm, so every rank reads the file by itself; if it fails on some ranks only, these end with QsonicException while the others wait (C13_sky_mask_refuted: the run deadlocks). Proved for the whole of mpi_run_all under the assumption that the sky mask file is readable on all ranks or on none."},
  {"property": "C14", "status": "proved", "theorems": ["C14_iterate"], "note": "all ranks: no deadlock (the MPI model turns any mismatch of collectives into Deadlock) and one common log of convergence reports of length <= niterations, stopping early exactly on convergence. Numerical routines are arbitrary functions."},
  {"property": "C15", "status": "proved", "theorems": ["C15_mean_of_any_history", "C15_mean_is_weighted_mean", "C15_mean_independent_of_order_and_slots"], "note": ""},
  {"property": "C16", "status": "proved", "theorems": ["C16_mean_independent_of_distribution", "C16_all_ranks_same_covariance"], "note": ""},
  {"property": "C17", "status": "partial", "theorems": ["C17_add_rejected_after_getter", "C17_add_accepted_before_getter", "C17_reset_is_fresh", "C17_covariance_after_mean_refuted"], "note": "Life cycle proved for all call histories; get_mean followed by get_mean_n_cov/get_mean_n_var always raises (C17_covariance_after_mean_refuted)."},
  {"property": "C18", "status": "proved", "theorems": ["C18_covariance_is_jackknife", "C18_covariance_is_a_covariance"], "note": ""},
  {"property": "C19", "status": "partial", "theorems": ["C19_square_covariance_symmetric", "C19_square_covariance_diagonal", "C19_independent_entries_zero_refuted", "C19_off_diagonal_excess"], "note": "Symmetry and diagonal proved; the entry of independent quantities is strictly positive instead of 0 (C19_independent_entries_zero_refuted)."},
  {"property": "C20", "status": "proved", "theorems": ["C20_reads_inside_table", "C20_single_node_out_of_bounds", "C20_exact_on_nodes", "C20_on_chord", "C20_segments_cover", "C20_reproduces_affine", "C20_stays_in_range", "C20_reset_replaces_table"], "note": "A table with a single node is read out of bounds for every x (C20_single_node_out_of_bounds)."},
  {"property": "C21", "status": "proved", "theorems": ["C21_natural_spline", "C21_natural_spline_unique", "C21_reset_recomputes"], "note": ""},
  {"property": "C22", "status": "partial", "theorems": ["C22_notaknot_spline", "C22_three_nodes_refuted"], "note": "Proved for tables of at least four nodes (slope continuity up to 2.5e-16 * h/6 * (|y''_i| + |y''_(i+1)|), the rounding of the tables); with three nodes the curve depends on uninitialised memory (C22_three_nodes_refuted)."},
  {"property": "C23", "status": "proved", "theorems": ["C23_power_series", "C23_horner"], "note": ""},
  {"property": "C24", "status": "proved", "theorems": ["C24_bad_pixels_neutralised", "C24_construction_succeeds"], "note": "Arrays are values in the model, so 'copies, does not modify its inputs' is by construction."},
  {"property": "C25", "status": "partial", "theorems": ["C25_forest_region", "C25_any_history_partial", "C25_region_succeeds", "C25_second_call_refuted"], "note": "Full statement for a newly constructed spectrum. For an object with a history the statement is false (C25_second_call_refuted: arms without good pixels in the new region keep the old forest); C25_any_history_partial says exactly what holds."},
  {"property": "C26", "status": "partial", "theorems": ["C26_arrays_aligned", "C26_slice_partial", "C26_slice_refuted"], "note": "Proved for all operation sequences whose slices keep the first pixel. Slices that drop leading pixels misalign aliased dictionaries (C26_slice_refuted), and are fine when the three dictionaries are different objects (C26_slice_partial)."},
  {"property": "C27", "status": "proved", "theorems": ["C27_forest_is_proper", "C27_sky_mask", "C27_bal_mask", "C27_sky_idempotent", "C27_bal_idempotent", "C27_sky_sky_commute", "C27_sky_bal_commute"], "note": "SkyMask and BALMask, all row tables, velocities, redshifts and ascending grids. Idempotence and commutation as equality of all pixels."},
  {"property": "C28", "status": "proved", "theorems": ["C28_dla_mask", "C28_signal_to_noise"], "note": "get_dla_flux (Voigt profile and damping wing) is an arbitrary finite function of wavelength, redshift and NHI; limit <= 1."},
  {"property": "C29", "status": "proved", "theorems": ["C29_mask_sequence", "C29_apply_masks"], "note": "Any sequence of masks built by the constructors; apply_masks on lists of spectra."},
  {"property": "C30", "status": "partial", "theorems": ["C30_flux_calibration", "C30_noise_eta_partial", "C30_noise_additive", "C30_needs_continuum", "C30_eta_negative_refuted"], "note": "Proved: FluxCalibrator, additive NoiseCalibrator, eta-only NoiseCalibrator where the interpolated eta is positive. Refuted: never negative in the eta-only mode (a spline through positive eta values can be negative between nodes, and the result is not clipped)."},
  {"property": "C31", "status": "proved", "theorems": ["C31_weights", "C31_without_continuum"], "note": "For finite continua; weights computed for any interpolators, bounds for eta > 0 and var_lss >= 0."},
  {"property": "C32", "status": "proved", "theorems": ["C32_coadd", "C32_lands_once", "C32_own_wavelength", "C32_masked_pixels", "C32_ivar_weights", "C32_arm_order", "C32_single_arm", "C32_simple_coadd"], "note": "coadd_arms_forest and simple_coadd, including fractional arm offsets (mocks); resolution matrices: only that coadding them succeeds. Finite data; continuum between arms (gaps) is uninitialised memory and nothing is claimed about it."},
  {"property": "C33", "status": "proved", "theorems": ["C33_drop_short_arms", "C33_remove_short_spectra"], "note": "drop_short_arms and remove_short_spectra (is_long), exact thresholds."},
  {"property": "C34", "status": "proved", "theorems": ["C34_redshift_cut"], "note": "Counts all pixels of the arm inside the forest region, masked or not."},
  {"property": "C35", "status": "proved", "theorems": ["C35_write", "C35_flux_recovered", "C35_delta_round_trip"], "note": "mean_resolution (a header value) is an oracle; floats are exact rationals with IEEE special values."},
  {"property": "C36", "status": "partial", "theorems": ["C36_coadd_partial", "C36_commutes_partial", "C36_order_partial", "C36_many_partial", "C36_masked_weight_refuted", "C36_resolution_refuted", "C36_order_refuted"], "note": "Proved: union grid, weighted mean of delta and continuum, propagated ivar, two deltas commute, any order for weight=ivar>0. Refuted: a masked pixel halves the weight of the other delta; three deltas with large-scale-structure variance give order-dependent results; a delta with a resolution matrix and one without raise AttributeError."},
  {"property": "C37", "status": "partial", "theorems": ["C37_written_once", "C37_file_order", "C37_contents_partial", "C37_total", "C37_no_files", "C37_coadd_keeps"], "note": "Each TARGETID once in the file of its healpix and all its deltas coadded, for every order. Contents independent of file order only for weight=ivar>0 (C36_order_refuted shows this fails in general)."},
  {"property": "C38", "status": "partial", "theorems": ["C38_same_on_all_ranks", "C38_history_partial", "C38_history_strategy", "C38_history_refuted", "C38_empty_rank_refuted"], "note": "Fresh process: same strategy and columns on all ranks, from the newest night over all ranks. Any history: blinded data is called DELTA_BLIND. Refuted: a mock analysis after a blinded one keeps DELTA_BLIND, two calls add RESOMAT twice, a rank without quasars aborts the run."},
  {"property": "C39", "status": "partial", "theorems": ["C39_picca", "C39_input", "C39_true", "C39_nan_refuted", "C39_true_refuted"], "note": "Proved for the fitted, input and true continuum models (C39_picca, C39_input, C39_true) for every minimizer outcome with finite parameters. False for a 'successful' minimizer with nan parameters (C39_nan_refuted: only values < 0 are tested) and for the sign of a true continuum (C39_true_refuted: never tested)."},
  {"property": "C40", "status": "proved", "theorems": ["C40_input_continua_attached"], "note": ""},
  {"property": "C41", "status": "proved", "theorems": ["C41_stacked_flux", "C41_one_bin", "C41_forest_in_range", "C41_any_history", "C41_upper_edge"], "note": "Stacked flux per bin is the weighted mean over all pixels of all ranks whose centre is in the bin. Finding: a pixel exactly at the upper edge w2obs, documented as legal, makes add raise (C41_upper_edge); forest pixels never reach it (C41_forest_in_range)."},
  {"property": "C42", "status": "proved", "theorems": ["C42_statistics", "C42_masked", "C42_one_bin", "C42_slices"], "note": "All statistics of VarLSSFitter over any distribution of arms over ranks: counts, mean, variance, noise, jackknife errors and covariances per bin; overflow bins take the rest. num_qso counts added arrays (arms), not quasars."},
  {"property": "C43", "status": "proved", "theorems": ["C43_fit", "C43_exception", "C43_rows"], "note": "curve_fit, cholesky, sqrt and the spline are arbitrary oracles. Failed bins and bins with fitted var_lss <= 0 are left out of the interpolation, which replaces every bin; with smooth=False failed bins stay 0."},
  {"property": "C44", "status": "partial", "theorems": ["C44_unit_average", "C44_orthogonal", "C44_idempotent_partial", "C44_idempotent_order0", "C44_legendre", "C44_idempotent_refuted"], "note": "Unit average for every linear quadrature and every cont_order; orthogonal and idempotent if the Legendre polynomials are orthogonal for the quadrature (always for cont_order 0). Not idempotent for the natural spline integral with cont_order 1 (C44_idempotent_refuted)."},
  {"property": "C45", "status": "partial", "theorems": ["C45_points_partial", "C45_criterion", "C45_refuted"], "note": "Up to 108 bins convergence implies that every point changed by < 0.33 of its error; with 109 bins or more (default 162) the chi2 criterion alone may report convergence although a point changed by 0.33 of its error (C45_refuted). C45_criterion gives the exact condition."},
  {"property": "C46", "status": "proved", "theorems": ["C46_smooth", "C46_scale", "C46_all_masked"], "note": "Over the reals; the gaussian convolution is an arbitrary length-preserving oracle: the masking, filling and un-masking logic of get_smooth_ivar around it is what is modelled."},
  {"property": "C47", "status": "partial", "theorems": ["C47_fiducial_partial", "C47_recomputed", "C47_coadd_after_refuted", "C47_additive_noise_refuted"], "note": "proved without coadding 'after' and additive noise; false with either of them: fit_final_varlss rebinds varlss_interp/eta_interp of the fitter, which qsonic_fit then uses to recompute the weights (C47_recomputed in general, two refuting runs)."},
  {"property": "C48", "status": "partial", "theorems": ["C48_written_partial", "C48_columns", "C48_normalised_refuted", "C48_eta_calibrated_refuted", "C48_eta_twice_refuted", "C48_exposures", "C48_exposures_refuted"], "note": "proved when nothing is rescaled after the last fit or when weights are recomputed afterwards; refuted for the stacked flux normalisation (stale weights), for eta calibration (eta before vs after the last update) and for eta calibration with coadding 'after' (eta twice); refuted for exposures read after the fit, whose WEIGHT is always their IVAR (C48_exposures, C48_exposures_refuted)."},
  {"property": "C49", "status": "partial", "theorems": ["C49_continuum", "C49_trim_partial", "C49_missing_arm_refuted", "C49_trim_refuted"], "note": "Continuum inherited pixel by pixel for every saved exposure, any grid offset. Trimming proved unless the exposure starts blueward of the coadd; refuted there (aliased dictionaries are cut three times) and for an arm the coadd does not have (RuntimeError)."},
  {"property": "C50", "status": "partial", "theorems": ["C50_accept_partial", "C50_model", "C50_accept_refuted", "C50_range_partial", "C50_range_refuted"], "note": "Acceptance is exactly the documented constraints for finite wavelengths; refuted: input continuum without directory, NaN wavelengths, NaN in range-checked options are accepted."},
  {"property": "C51", "status": "partial", "theorems": ["C51_shared_grid", "C51_missing_arm_partial", "C51_consistency_refuted"], "note": "Shared grid proved for all constructions. The consistency check compares the stored grid with itself: it accepts every grid that has the stored arms (C51_consistency_refuted); only missing arms are detected (C51_missing_arm_partial)."},
  {"property": "C52", "status": "proved", "theorems": ["C52_bounds", "C52_order", "C52_single_arm"], "note": ""},
  {"property": "C53", "status": "partial", "theorems": ["C53_mask_partial", "C53_mask_refuted"], "note": "Partial: get_median_outlier_mask compares with max(1, median) and adds 1e-12, so the documented threshold is refuted without that floor; the proved theorem states the exact condition. The function is not called from spectrum.py."},
  {"property": "C54", "status": "proved", "theorems": ["C54_files_of_a_run"], "note": "Assumes that the readers only return spectra of requested catalog rows (C08-C10), that argsort sorts, and the sky mask assumption of C13. The tile-grouped, saved-by-healpix case is refuted in C04."},
  {"property": "C55", "status": "partial", "theorems": ["C55_ends_together", "C55_finishes_partial", "C55_idle_rank_refuted", "C55_single_id_refuted"], "note": "no rank waits, proved for all worlds; finishing proved under calib_ok. Refuted: one rank without wanted deltas ends the whole run (IndexError in mpi_stack_fluxes, although only a warning is printed); a TARGETID file with a single number is a 0-d array and cannot be concatenated with removals from the catalog. Files left over by the division over ranks are C11."},
  {"property": "C56", "status": "proved", "theorems": ["C56_variance_of_sample"], "note": "the statistics and the fit are the specifications of C40-C43 (SpecVarFit), for finite pixels."},
  {"property": "C57", "status": "partial", "theorems": ["C57_stacked_flux_partial", "C57_wavelengths_refuted", "C57_halfway_refuted"], "note": "proved for pixels that are not halfway between two points; refuted: halfway pixels collide by round-half-even and one is lost; wavelengths written are linspace(w1, w2), which differ from the bin centres unless the range is a multiple of the step."},
  {"property": "C58", "status": "proved", "theorems": ["C58_tables"], "note": "finite fluxes, inverse variances and continua (the model stops otherwise; numpy carries nan on). Without a fiducial var_lss the normalisation and the eta calibration, which change the spectra after the fit, must be off; the fit itself is the specification of C40-C43."},
  {"property": "C59", "status": "proved", "theorems": ["C59_cost", "C59_reported", "C59_masked"], "note": "Over exact rationals with an abstract logarithm; the minimizer (iminuit or scipy) is any function that looks at the cost through its values. The covariance it returns is taken as it is."},
  {"property": "C60", "status": "proved", "theorems": ["C60_range", "C60_more", "C60_order", "C60_column_density", "C60_wings"], "note": "Over the real numbers (no rounding, underflow or overflow); Coquelicot is used for derivatives; assumptions are the axioms of the standard library's reals and classical logic."},
  {"property": "C61", "status": "proved", "theorems": ["C61_catalog", "C61_ends", "C61_fitted"], "note": "Columns are exact instead of f4/i4, and a string of arms longer than five characters is cut (as in the code). The degrees of freedom are copied; how they are computed is not claimed."},
  {"property": "C62", "status": "proved", "theorems": ["C62_average", "C62_sums", "C62_simple_coadd"], "note": ""},
  {"property": "C63", "status": "proved", "theorems": ["C63_rsnr", "C63_forest", "C63_coadd"], "note": ""},
  {"property": "C64", "status": "proved", "theorems": ["C64_gaussian", "C64_constant", "C64_wave", "C64_scale", "C64_masked", "C64_nan", "C64_few"], "note": ""},
  {"property": "C65", "status": "partial", "theorems": ["C65_moving_average", "C65_flat", "C65_linear", "C65_flat_ivar", "C65_length", "C65_width_refuted"], "note": "Proved except for the scale: C65_width_refuted shows that the scale is not the standard deviation in pixels (a factor 2 pi is missing in the frequencies)."},
  {"property": "C66", "status": "proved", "theorems": ["C66_selection", "C66_history"], "note": ""},
  {"property": "C67", "status": "partial", "theorems": ["C67_accepts", "C67_accepts_noise", "C67_exact", "C67_exact_noise", "C67_round_trip", "C67_positive", "C67_extrapolation_refuted", "C67_drift_partial", "C67_drift_refuted", "C67_equal_wavelengths_refuted"], "note": "Proved for equally spaced tables with increasing wavelengths (at least four rows for the noise calibration). C67_drift_partial and C67_drift_refuted: within the tolerance of the spacing check deviations add up, so a value may be used any number of rows away from its wavelength. C67_equal_wavelengths_refuted: a table with one wavelength repeated is accepted. C67_extrapolation_refuted: beyond the table the flux correction of a positive table may be negative."},
  {"property": "C68", "status": "partial", "theorems": ["C68_same_program", "C68_fit_inputs", "C68_names", "C68_distinct", "C68_used", "C68_second_to_last_partial", "C68_final", "C68_no_var_func", "C68_start", "C68_second_to_last_refuted"], "note": "Proved; the documented rule \"second to last\" holds with fitted variance functions (C68_second_to_last_partial) and fails with a fiducial var_lss (C68_second_to_last_refuted), where the file ends with one more set (-fit) and has no VAR_FUNC extension, so that it cannot be given to --noise-calibration (C68_no_var_func). Of VAR_STATS only the name is modelled."},
  {"property": "C69", "status": "partial", "theorems": ["C69_fitting_partial", "C69_iterate_partial", "C69_run_partial", "C69_error_bars_refuted"], "note": "Proved with a fiducial var_lss (exact arithmetic, no rounding), without additive noise and coadding 'after': for the continuum fitting (C69_fitting_partial) and for the spectra written by the whole run (C69_run_partial). With a fitted var_lss it is false: each rank starts with another subsample, so the error bars of the variance depend on the number of ranks (C69_error_bars_refuted)."},
  {"property": "C70", "status": "partial", "theorems": ["C70_accounted", "C70_no_arm_left_refuted", "C70_one_arm_partial"], "note": "C70_accounted proves the whole chain up to the list of spectra in each delta file, when exposures are not re-read after the fit. The last sentence is false: arms are counted together before the fit and one by one after it, so a valid spectrum may be saved without any arm (C70_no_arm_left_refuted); a spectrum with a single arm keeps it (C70_one_arm_partial)."},
  {"property": "C71", "status": "partial", "theorems": ["C71_window", "C71_masked_partial", "C71_masked_exposures_partial", "C71_off_grid_refuted"], "note": "The window part is proved for all options. The mask part is proved without exposures read after the fit (C71_masked_partial; arms that are coadded after the fit have to be on one wavelength grid: C71_off_grid_refuted) and for exposures read after the fit (C71_masked_exposures_partial; an inverse variance cut to a single value, which numpy would repeat for all pixels, is an error in the model)."},
  {"property": "C72", "status": "proved", "theorems": ["C72_values", "C72_coadded"], "note": ""},
  {"property": "C73", "status": "proved", "theorems": ["C73_one_formula", "C73_fiducial"], "note": ""},
  {"property": "C74", "status": "proved", "theorems": ["C74_same_program", "C74_last_fits", "C74_recomputed"], "note": ""},
  {"property": "C75", "status": "partial", "theorems": ["C75_same_program", "C75_catalog", "C75_chi2_partial", "C75_stale_refuted", "C75_dof_refuted"], "note": "C75_catalog proves the rows, CONT_dof and the order; C75_chi2_partial the sum when the arms are coadded after the fit or nothing changes the spectra after it. Otherwise the sum is false: CONT_chi2 is not computed again after additive noise or the normalisation of the flux (C75_stale_refuted). With coadding after the fit CONT_dof counts the pixels before coadding while CONT_chi2 sums over the coadded ones (C75_dof_refuted)."},
  {"property": "C76", "status": "proved", "theorems": ["C76_continuum", "C76_final_table_refuted"], "note": "C76_continuum is the property; C76_final_table_refuted shows by a run of two iterations that the table CONT without a number does not give the continua. Not stated: coadding of the arms after the fit (there the continuum is a mean over arms), input and true continua (no coefficients). The mean flux is that of the input file, or 1."},
  {"property": "C77", "status": "partial", "theorems": ["C77_not_after", "C77_deltas_partial", "C77_catalog_partial", "C77_covered", "C77_nan_refuted", "C77_exposures_refuted"], "note": "C77_not_after and C77_covered hold for any contents. C77_deltas_partial and C77_catalog_partial need finite contents: C77_nan_refuted shows a run in which nan changes chi2. They exclude exposures read after the fit together with coadding after it, for which C77_exposures_refuted shows a run with other values of DELTA in a pixel that is not masked. In floating point a finite value above 1e154 overflows when squared, so it acts like an infinite one."},
  {"property": "C78", "status": "proved", "theorems": ["C78_coefficients", "C78_invalid_refuted"], "note": "C78_coefficients is the property for the rows; C78_invalid_refuted shows a run in which a row without a valid continuum keeps the coefficients of an earlier fit. Not stated: in a valid row the answer is that of the last fit (C76 gives the continuum from these coefficients)."},
  {"property": "C79", "status": "proved", "theorems": ["C79_bounds", "C79_quasars_refuted"], "note": "C79_bounds is the property; C79_quasars_refuted shows that the count itself is not the number of quasars."},
  {"property": "C80", "status": "partial", "theorems": ["C80_written", "C80_own_pixels_partial", "C80_masked_refuted"], "note": "C80_masked_refuted shows a run that writes a spectrum below the minimum of --min-forestsnr because pixels masked later still count. C80_written says which pixels MEANSNR is about in every run without coadding; C80_own_pixels_partial is the property without calibrations and masks. After coadding before the fit, MEANSNR is that of the coadded pixels (C63_coadd)."}
]}
