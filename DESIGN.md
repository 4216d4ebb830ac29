# Formal model of qsonic in Rocq/Coq

## Layout

The python package in /repo/py/qsonic is modelled function by function as total,
executable Gallina functions.  `rocq/theories/` holds

* `Num.v`      exact rationals (`Qc`), the extended number type `num` (finite, nan,
               +inf, -inf: float64 without rounding and signed zero), python's int()
               and round();
* `NpList.v`   the numpy array primitives the code uses, on lists (searchsorted,
               unique + split, intersect1d, bincount, slicing, fancy indexing, ...);
* `Dict.v`     python dictionaries: association lists in insertion order;
* `Exn.v`      exceptions as values (`QsonicExn`, `OtherExn`, `SysExit`);
* `Mpi.v`      programs of one rank that stop at collective operations, and the
               communicator that runs one program per rank;
* `Model*.v`   the model, definitions only, each with the file and lines it models
               and the simplifications it makes;
* `Spec*.v`    specification vocabulary that does not use the control flow of the code;
* `Proof*.v`   lemmas;
* `Prop*.v`    the property theorems: statement, `exact lemma`, `Print Assumptions`,
               and examples that show concrete cases meeting the hypotheses.

`properties.jsonl` has the English statements, `MANIFEST.json` the theorems of each
property, `seeded/LOG.jsonl` the wrong programs the theorems were tested against.

A property that is false of the faithful model is recorded by a theorem `..._refuted`
with a concrete witness, beside the strongest true variant (suffix `_partial`), and is
listed under Findings.  Such a property has the status "partial".

## Modelling conventions

* **Numbers.**  float64 is exact rational arithmetic; where NaN or infinities are
  observable the type is `num`.  `get_smooth_ivar`, `get_median_outlier_mask` and the
  DLA profile use Coq's reals, because of square roots and exponentials.
  Elsewhere sqrt, log and the like are arbitrary functions that the theorem quantifies.
* **Arrays** are lists; operations on arrays of different shapes are errors, as in numpy
  (broadcasting of length one is not modelled: the code would only meet it when the inverse
  variance of an exposure is cut to a single value, see C49 and C71).
* **Aliasing.**  The three dictionaries forestivar, forestivar_sm and forestweight of a
  Spectrum may be the same object; they are references into a small heap, so that
  in-place changes are seen through all of them.  The interpolators of the continuum
  fitter are references as well (C47, C58).
* **Class attributes** (Spectrum.WAVELENGTH_..., blinding) are explicit state that is
  threaded through calls (C38, C51).
* **Uninitialised memory** (`np.empty`) is an arbitrary value of the theorem.
* **External code.**  File contents, minimizers (iminuit, scipy), curve_fit, Cholesky,
  gaussian smoothing, splines of scipy, healpy, argsort (any sorting permutation) and
  the order of a failing file access are universally quantified functions or arguments
  of the theorem.  They may return anything or raise; a theorem that needs something of
  them has it as a hypothesis.
* **MPI.**  A rank is a program (`prog`): return, raise, Bcast, Scatter, Allreduce.
  `run` advances all ranks in lock step through matching collectives; a rank that waits
  for a collective others do not reach is `Deadlock`, an exception other than
  QsonicException is an `Abort` of all ranks (main() of the scripts does that).
  comm.reduce and comm.gather are modelled as allreduce (the result is used on rank 0).
  The program is deterministic per rank, so there is one schedule up to interleaving;
  this is where the model relies on MPI's guarantee that collectives match in order.

## How the properties are modelled and proved

* **C01 Load balancing loses and duplicates nothing** (proved). Model: ModelMpiUtils.balance_load. Proof: Permutation of the concatenated queues, by induction over the greedy loop. Theorems: `C01_balance_load_partition`.
* **C02 Load balancing is greedy-fair** (proved). Model: ModelMpiUtils.balance_load. Proof: invariant of the greedy loop; bounds on the final loads, and no single move of a catalog improves the largest load. Theorems: `C02_loads_differ_by_at_most_one_catalog`, `C02_no_idle_rank`, `C02_close_to_average`, `C02_no_move_improves`.
* **C03 Every quasar is assigned to exactly one rank and healpixels are never shared** (proved). Model: ModelCatalog, ModelMpiUtils. Proof: grouping by np.unique/np.split and the scatter; induction over the sorted catalog; broadcast failures. Theorems: `C03_every_quasar_to_one_rank`, `C03_unreadable_catalog_fails_everywhere`.
* **C04 Healpix-named delta files of different ranks never overwrite each other** (partial). Model: ModelIO.save_deltas, ModelCatalog. Proof: composition of C03 with the writer; disjoint file names; tile case refuted. Theorems: `C04_healpix_files_disjoint`, `C04_tile_queues_refuted`. Proved for healpix-grouped queues; false for tile-grouped queues (C04_tile_queues_refuted), a combination the argument logic of qsonic-fit rejects.
* **C05 save_deltas writes every valid spectrum exactly once and nothing else** (proved). Model: ModelIO.save_deltas. Proof: list of writes is a permutation of the valid spectra; error branches separately. Theorems: `C05_save_by_healpix`, `C05_save_by_rank`, `C05_refuses_before_blinding`, `C05_no_output_directory`.
* **C06 Catalog priming is a sound and complete filter** (proved). Model: ModelCatalog. Proof: filter is sound and complete, sorted, without duplicates; success iff the catalog is usable. Theorems: `C06_catalog_filter`, `C06_succeeds_iff`.
* **C07 Each quasar is looked up in the file of its own survey** (partial). Model: ModelIO, ModelCatalog, ModelFitQueue. Proof: survey split of a sorted catalog; witnesses for unsorted catalogs. Theorems: `C07_own_survey_file_partial`, `C07_keep_all_surveys_refuted`, `C07_exposures_after_refuted`, `C07_keep_all_surveys_crash_refuted`. Proved when surveys are selected (keep_surveys given). False with keep_surveys=None and for the exposures re-read after coadding: the catalog is not sorted by SURVEY there.
* **C08 A spectrum carries the data of its own TARGETID (coadded files)** (proved). Model: ModelIO readers. Proof: alignment of intersect1d on sorted catalogs with the fibermap, any file contents. Theorems: `C08_coadd_reader_alignment`, `C08_tile_reader_alignment`, `C08_mock_reader_alignment`.
* **C09 A spectrum carries the data and metadata of its own exposure** (proved). Model: ModelIO uncoadded reader. Proof: argsort is any sorting permutation; alignment for every tie-breaking. Theorems: `C09_exposure_reader_alignment`.
* **C10 Resolution matrices read separately belong to their spectrum** (partial). Model: ModelIO resolution reader. Proof: zip of indices and spectra; refuted with a missing target. Theorems: `C10_resolution_alignment_partial`, `C10_missing_quasar_refuted`. Proved when every requested quasar is in the file; otherwise the matrices shift (C10_missing_quasar_refuted).
* **C11 Delta files are partitioned over the ranks of qsonic-calib** (partial). Model: ModelIO.calib_files_of_rank. Proof: slice arithmetic; exact set of files read. Theorems: `C11_files_read`, `C11_partition_partial`, `C11_all_files_read_refuted`. C11_files_read is the exact set of files read; all files are read iff the count is a multiple of mpi_size or at most mpi_size; the remainder is lost otherwise (C11_all_files_read_refuted).
* **C12 Broadcast helpers never split the ranks** (partial). Model: ModelMpiUtils.mpi_fnc_bcast, mpi_parse. Proof: SPMD semantics, all outcomes of the wrapped function on every rank. Theorems: `C12_fnc_bcast_all_or_none`, `C12_parse_all_or_none`, `C12_system_exit_refuted`. Proved for every exception except SystemExit raised inside the wrapped function, for which the other ranks wait forever (C12_system_exit_refuted).
* **C13 QsonicException is raised on all ranks or on none** (partial). Model: ModelPipeline.run_all. Proof: whole program of all ranks; the ranks end together, by composition of `together` lemmas for each part. Theorems: `C13_run_all_partial`, `C13_sky_mask_refuted`. Refuted as stated: mpi_read_masks builds SkyMask without comm, so every rank reads the file by itself; if it fails on some ranks only, these end with QsonicException while the others wait (C13_sky_mask_refuted: the run deadlocks). Proved for the whole of mpi_run_all under the assumption that the sky mask file is readable on all ranks or on none.
* **C14 All ranks perform the same continuum-fit iterations** (proved). Model: ModelFitter. Proof: lock-step invariant by induction over iterations; the log of convergence reports is the same on all ranks. Theorems: `C14_iterate`. all ranks: no deadlock (the MPI model turns any mismatch of collectives into Deadlock) and one common log of convergence reports of length <= niterations, stopping early exactly on convergence. Numerical routines are arbitrary functions.
* **C15 Subsampled mean is the weighted mean of all measurements** (proved). Model: ModelSubsample. Proof: invariant over call histories: the slots sum to the measurements. Theorems: `C15_mean_of_any_history`, `C15_mean_is_weighted_mean`, `C15_mean_independent_of_order_and_slots`.
* **C16 Subsampled mean does not depend on the MPI distribution** (proved). Model: ModelSubsample, Mpi. Proof: per-rank states and allreduce; reuse of the C15 invariant. Theorems: `C16_mean_independent_of_distribution`, `C16_all_ranks_same_covariance`.
* **C17 Statistics life cycle: no measurement is lost or accepted too late** (partial). Model: ModelSubsample. Proof: state machine with exceptions, all histories. Theorems: `C17_add_rejected_after_getter`, `C17_add_accepted_before_getter`, `C17_reset_is_fresh`, `C17_covariance_after_mean_refuted`. Life cycle proved for all call histories; get_mean followed by get_mean_n_cov/get_mean_n_var always raises (C17_covariance_after_mean_refuted).
* **C18 Jackknife covariance is a covariance** (proved). Model: ModelSubsample. Proof: jackknife covariance is X^T X; symmetric, quadratic form is a sum of squares. Theorems: `C18_covariance_is_jackknife`, `C18_covariance_is_a_covariance`.
* **C19 Covariance of squares** (partial). Model: ModelSubsample.block_covariance_of_square. Proof: ring identities; explicit counterexample. Theorems: `C19_square_covariance_symmetric`, `C19_square_covariance_diagonal`, `C19_independent_entries_zero_refuted`, `C19_off_diagonal_excess`. Symmetry and diagonal proved; the entry of independent quantities is strictly positive instead of 0 (C19_independent_entries_zero_refuted).
* **C20 Linear interpolator is exact on nodes and never reads outside the table** (proved). Model: ModelInterp linear. Proof: index clipping over Qc; exactness, chord, range. Theorems: `C20_reads_inside_table`, `C20_single_node_out_of_bounds`, `C20_exact_on_nodes`, `C20_on_chord`, `C20_segments_cover`, `C20_reproduces_affine`, `C20_stays_in_range`, `C20_reset_replaces_table`. A table with a single node is read out of bounds for every x (C20_single_node_out_of_bounds).
* **C21 Natural cubic spline is a C2 interpolant** (proved). Model: ModelInterp natural spline. Proof: sweeps solve the tridiagonal system (invariant p > 0); uniqueness. Theorems: `C21_natural_spline`, `C21_natural_spline_unique`, `C21_reset_recomputes`.
* **C22 Not-a-knot cubic spline solves its continuity equations** (partial). Model: ModelInterp not-a-knot. Proof: the literal decimal tables as rationals; residual bound for every N >= 4; N = 3 refuted. Theorems: `C22_notaknot_spline`, `C22_three_nodes_refuted`. Proved for tables of at least four nodes (slope continuity up to 2.5e-16 * h/6 * (|y''_i| + |y''_(i+1)|), the rounding of the tables); with three nodes the curve depends on uninitialised memory (C22_three_nodes_refuted).
* **C23 Polynomial evaluation** (proved). Model: ModelInterp.mypoly1d. Proof: induction over coefficients; Horner. Theorems: `C23_power_series`, `C23_horner`.
* **C24 Spectrum construction neutralises bad pixels** (proved). Model: ModelSpectrum construction. Proof: pointwise, with nan and inf in flux and ivar. Theorems: `C24_bad_pixels_neutralised`, `C24_construction_succeeds`. Arrays are values in the model, so 'copies, does not modify its inputs' is by construction.
* **C25 Forest region selects exactly the requested pixels** (partial). Model: ModelSpectrum.set_forest_region. Proof: searchsorted lemmas on ascending grids; any history of the object; second call refuted. Theorems: `C25_forest_region`, `C25_any_history_partial`, `C25_region_succeeds`, `C25_second_call_refuted`. Full statement for a newly constructed spectrum. For an object with a history the statement is false (C25_second_call_refuted: arms without good pixels in the new region keep the old forest); C25_any_history_partial says exactly what holds.
* **C26 Per-arm arrays stay aligned** (partial). Model: ModelSpectrum. Proof: heap of aliased dictionaries; invariant by induction over operation sequences. Theorems: `C26_arrays_aligned`, `C26_slice_partial`, `C26_slice_refuted`. Proved for all operation sequences whose slices keep the first pixel. Slices that drop leading pixels misalign aliased dictionaries (C26_slice_refuted), and are fine when the three dictionaries are different objects (C26_slice_partial).
* **C27 Wavelength masks zero exactly the masked intervals** (proved). Model: ModelMasks. Proof: interval membership from searchsorted; idempotence and commutation. Theorems: `C27_forest_is_proper`, `C27_sky_mask`, `C27_bal_mask`, `C27_sky_idempotent`, `C27_bal_idempotent`, `C27_sky_sky_commute`, `C27_sky_bal_commute`. SkyMask and BALMask, all row tables, velocities, redshifts and ascending grids. Idempotence and commutation as equality of all pixels.
* **C28 DLA correction preserves signal-to-noise and masks saturated pixels** (proved). Model: ModelMasks.dlamask_apply. Proof: transmission is any function; pointwise. Theorems: `C28_dla_mask`, `C28_signal_to_noise`. get_dla_flux (Voigt profile and damping wing) is an arbitrary finite function of wavelength, redshift and NHI; limit <= 1.
* **C29 Masks never resurrect pixels** (proved). Model: ModelMasks, ModelPipeline. Proof: induction over mask sequences. Theorems: `C29_mask_sequence`, `C29_apply_masks`. Any sequence of masks built by the constructors; apply_masks on lists of spectra.
* **C30 Calibrations act as documented on every pixel** (partial). Model: ModelMasks calibrators. Proof: pointwise over num; spline undershoot refutes non-negativity. Theorems: `C30_flux_calibration`, `C30_noise_eta_partial`, `C30_noise_additive`, `C30_needs_continuum`, `C30_eta_negative_refuted`. Proved: FluxCalibrator, additive NoiseCalibrator, eta-only NoiseCalibrator where the interpolated eta is positive. Refuted: never negative in the eta-only mode (a spline through positive eta values can be negative between nodes, and the result is not clipped).
* **C31 Forest weights follow the variance model** (proved). Model: ModelSpectrum.set_forest_weight. Proof: field identities lifted to num; fallback branches. Theorems: `C31_weights`, `C31_without_continuum`. For finite continua; weights computed for any interpolators, bounds for eta > 0 and var_lss >= 0.
* **C32 Coadding arms is an inverse-variance average on the right pixels** (proved). Model: ModelSpectrum coadd. Proof: index arithmetic with truncation; sums over arms; order independence. Theorems: `C32_coadd`, `C32_lands_once`, `C32_own_wavelength`, `C32_masked_pixels`, `C32_ivar_weights`, `C32_arm_order`, `C32_single_arm`, `C32_simple_coadd`. coadd_arms_forest and simple_coadd, including fractional arm offsets (mocks); resolution matrices: only that coadding them succeeds. Finite data; continuum between arms (gaps) is uninitialised memory and nothing is claimed about it.
* **C33 Short-arm and short-spectrum removal thresholds** (proved). Model: ModelSpectrum. Proof: counting pixels with positive ivar against the threshold. Theorems: `C33_drop_short_arms`, `C33_remove_short_spectra`. drop_short_arms and remove_short_spectra (is_long), exact thresholds.
* **C34 The catalog redshift cut only removes quasars that would be too short anyway** (proved). Model: ModelFitArgs, ModelSpectrum. Proof: counting grid points in an interval. Theorems: `C34_redshift_cut`. Counts all pixels of the arm inside the forest region, masked or not.
* **C35 Delta files contain finite, self-consistent values** (proved). Model: ModelDelta write/read. Proof: num division, case analysis; round trip through the columns. Theorems: `C35_write`, `C35_flux_recovered`, `C35_delta_round_trip`. mean_resolution (a header value) is an oracle; floats are exact rationals with IEEE special values.
* **C36 Coadding deltas** (partial). Model: ModelDelta.coadd. Proof: union grid and weighted means; witnesses for the false parts. Theorems: `C36_coadd_partial`, `C36_commutes_partial`, `C36_order_partial`, `C36_many_partial`, `C36_masked_weight_refuted`, `C36_resolution_refuted`, `C36_order_refuted`. Proved: union grid, weighted mean of delta and continuum, propagated ivar, two deltas commute, any order for weight=ivar>0. Refuted: a masked pixel halves the weight of the other delta; three deltas with large-scale-structure variance give order-dependent results; a delta with a resolution matrix and one without raise AttributeError.
* **C37 Coadd script keeps every sight line once** (partial). Model: ModelDelta coadd script. Proof: fold over deltas; keys without duplicates; grouping. Theorems: `C37_written_once`, `C37_file_order`, `C37_contents_partial`, `C37_total`, `C37_no_files`, `C37_coadd_keeps`. Each TARGETID once in the file of its healpix and all its deltas coadded, for every order. Contents independent of file order only for weight=ivar>0 (C36_order_refuted shows this fails in general).
* **C38 Blinding decision** (partial). Model: ModelBlinding. Proof: decision table on nights; allreduce of maxima; histories of class state. Theorems: `C38_same_on_all_ranks`, `C38_history_partial`, `C38_history_strategy`, `C38_history_refuted`, `C38_empty_rank_refuted`. Fresh process: same strategy and columns on all ranks, from the newest night over all ranks. Any history: blinded data is called DELTA_BLIND. Refuted: a mock analysis after a blinded one keeps DELTA_BLIND, two calls add RESOMAT twice, a rank without quasars aborts the run.
* **C39 Continuum validity contract** (partial). Model: ModelContinuum. Proof: every outcome of the minimizer; loops over arms with break. Theorems: `C39_picca`, `C39_input`, `C39_true`, `C39_nan_refuted`, `C39_true_refuted`. Proved for the fitted, input and true continuum models (C39_picca, C39_input, C39_true) for every minimizer outcome with finite parameters. False for a 'successful' minimizer with nan parameters (C39_nan_refuted: only values < 0 are tested) and for the sign of a true continuum (C39_true_refuted: never tested).
* **C40 Input continua are attached to their own quasar** (proved). Model: ModelInputCont. Proof: sort/split/intersect look-up. Theorems: `C40_input_continua_attached`.
* **C41 Stacked flux is the weighted mean in each bin** (proved). Model: ModelStack. Proof: bincount lemmas; bins by truncation; sums over ranks. Theorems: `C41_stacked_flux`, `C41_one_bin`, `C41_forest_in_range`, `C41_any_history`, `C41_upper_edge`. Stacked flux per bin is the weighted mean over all pixels of all ranks whose centre is in the bin. Finding: a pixel exactly at the upper edge w2obs, documented as legal, makes add raise (C41_upper_edge); forest pixels never reach it (C41_forest_in_range).
* **C42 Variance statistics count every pixel in its own bin** (proved). Model: ModelVarFit. Proof: searchsorted and flat index arithmetic; all histories and distributions. Theorems: `C42_statistics`, `C42_masked`, `C42_one_bin`, `C42_slices`. All statistics of VarLSSFitter over any distribution of arms over ranks: counts, mean, variance, noise, jackknife errors and covariances per bin; overflow bins take the rest. num_qso counts added arrays (arms), not quasars.
* **C43 Variance fit failure policy** (proved). Model: ModelVarFit.vfit_fit. Proof: fit loop with curve_fit, Cholesky and spline oracles. Theorems: `C43_fit`, `C43_exception`, `C43_rows`. curve_fit, cholesky, sqrt and the spline are arbitrary oracles. Failed bins and bins with fitted var_lss <= 0 are left out of the interpolation, which replaces every bin; with smooth=False failed bins stay 0.
* **C44 Mean continuum normalisation** (partial). Model: ModelFitter mean continuum. Proof: quadrature as a linear functional; explicit natural-spline counterexample. Theorems: `C44_unit_average`, `C44_orthogonal`, `C44_idempotent_partial`, `C44_idempotent_order0`, `C44_legendre`, `C44_idempotent_refuted`. Unit average for every linear quadrature and every cont_order; orthogonal and idempotent if the Legendre polynomials are orthogonal for the quadrature (always for cont_order 0). Not idempotent for the natural spline integral with cont_order 1 (C44_idempotent_refuted).
* **C45 Convergence criterion** (partial). Model: ModelFitter convergence. Proof: inequalities over Qc; 109-bin counterexample. Theorems: `C45_points_partial`, `C45_criterion`, `C45_refuted`. Up to 108 bins convergence implies that every point changed by < 0.33 of its error; with 109 bins or more (default 162) the chi2 criterion alone may report convergence although a point changed by 0.33 of its error (C45_refuted). C45_criterion gives the exact condition.
* **C46 Smoothing keeps the mask** (proved). Model: ModelSmooth. Proof: reals; gaussian convolution is an oracle. Theorems: `C46_smooth`, `C46_scale`, `C46_all_masked`. Over the reals; the gaussian convolution is an arbitrary length-preserving oracle: the masking, filling and un-masking logic of get_smooth_ivar around it is what is modelled.
* **C47 Fiducial variance is what goes into the weights** (partial). Model: ModelFitter. Proof: references to interpolators followed through the whole fit. Theorems: `C47_fiducial_partial`, `C47_recomputed`, `C47_coadd_after_refuted`, `C47_additive_noise_refuted`. proved without coadding 'after' and additive noise; false with either of them: fit_final_varlss rebinds varlss_interp/eta_interp of the fitter, which qsonic_fit then uses to recompute the weights (C47_recomputed in general, two refuting runs).
* **C48 Written weights are consistent with the written ivar and continuum** (partial). Model: ModelFitter, ModelDelta. Proof: field identities for each option combination; witnesses. Theorems: `C48_written_partial`, `C48_columns`, `C48_normalised_refuted`, `C48_eta_calibrated_refuted`, `C48_eta_twice_refuted`, `C48_exposures`, `C48_exposures_refuted`. proved when nothing is rescaled after the last fit or when weights are recomputed afterwards; refuted for the stacked flux normalisation (stale weights), for eta calibration (eta before vs after the last update) and for eta calibration with coadding 'after' (eta twice); refuted for exposures read after the fit, whose WEIGHT is always their IVAR (C48_exposures, C48_exposures_refuted).
* **C49 Exposures inherit the continuum of their quasar pixel by pixel** (partial). Model: ModelExposures. Proof: dictionary iteration with deletion; heap model. Theorems: `C49_continuum`, `C49_trim_partial`, `C49_missing_arm_refuted`, `C49_trim_refuted`. Continuum inherited pixel by pixel for every saved exposure, any grid offset. Trimming proved unless the exposure starts blueward of the coadd; refuted there (aliased dictionaries are cut three times) and for an arm the coadd does not have (RuntimeError).
* **C50 Argument combinations that cannot work are rejected** (partial). Model: ModelFitArgs. Proof: boolean decision function against the documented constraints. Theorems: `C50_accept_partial`, `C50_model`, `C50_accept_refuted`, `C50_range_partial`, `C50_range_refuted`. Acceptance is exactly the documented constraints for finite wavelengths; refuted: input continuum without directory, NaN wavelengths, NaN in range-checked options are accepted.
* **C51 Wavelength grid consistency** (partial). Model: ModelSpectrum class state. Proof: histories of constructions. Theorems: `C51_shared_grid`, `C51_missing_arm_partial`, `C51_consistency_refuted`. Shared grid proved for all constructions. The consistency check compares the stored grid with itself: it accepts every grid that has the stored arms (C51_consistency_refuted); only missing arms are detected (C51_missing_arm_partial).
* **C52 Effective signal-to-noise** (proved). Model: ModelSpectrum. Proof: inequalities over Qc by induction on arms. Theorems: `C52_bounds`, `C52_order`, `C52_single_arm`.
* **C53 Outlier mask** (partial). Model: ModelSmooth. Proof: median filter as oracle; exact threshold. Theorems: `C53_mask_partial`, `C53_mask_refuted`. Partial: get_median_outlier_mask compares with max(1, median) and adds 1e-12, so the documented threshold is refuted without that floor; the proved theorem states the exact condition. The function is not called from spectrum.py.
* **C54 End to end: what a run writes** (proved). Model: ModelPipeline.run_all. Proof: all parts composed: which spectra are written to which files. Theorems: `C54_files_of_a_run`. Assumes that the readers only return spectra of requested catalog rows (C08-C10), that argsort sorts, and the sky mask assumption of C13. The tile-grouped, saved-by-healpix case is refuted in C04.
* **C55 qsonic-calib: ends, and uses exactly the wanted sight lines** (partial). Model: ModelCalib. Proof: whole program of all ranks; end states; sample characterised. Theorems: `C55_ends_together`, `C55_finishes_partial`, `C55_idle_rank_refuted`, `C55_single_id_refuted`. no rank waits, proved for all worlds; finishing proved under calib_ok. Refuted: one rank without wanted deltas ends the whole run (IndexError in mpi_stack_fluxes, although only a warning is printed); a TARGETID file with a single number is a 0-d array and cannot be concatenated with removals from the catalog. Files left over by the division over ranks are C11.
* **C56 qsonic-calib: variance statistics are those of the whole sample** (proved). Model: ModelCalib, ModelVarFit. Proof: composition with the statistics of C42/C43. Theorems: `C56_variance_of_sample`. the statistics and the fit are the specifications of C40-C43 (SpecVarFit), for finite pixels.
* **C57 qsonic-calib: stacked flux is the weighted mean flux** (partial). Model: ModelCalib.stack_fluxes. Proof: rounding lemmas, sums over ranks; witnesses. Theorems: `C57_stacked_flux_partial`, `C57_wavelengths_refuted`, `C57_halfway_refuted`. proved for pixels that are not halfway between two points; refuted: halfway pixels collide by round-half-even and one is lost; wavelengths written are linspace(w1, w2), which differ from the bin centres unless the range is a multiple of the step.
* **C58 var_lss and eta tables belong to the spectra of the run** (proved). Model: ModelFitter. Proof: invariant of the tables over iterations and ranks: always the fit of the current spectra. Theorems: `C58_tables`. finite fluxes, inverse variances and continua (the model stops otherwise; numpy carries nan on). Without a fiducial var_lss the normalisation and the eta calibration, which change the spectra after the fit, must be off; the fit itself is the specification of C40-C43.
* **C59 The continuum fit maximises the likelihood of the unmasked pixels only** (proved). Model: ModelCost, ModelContinuum. Proof: cost at every parameter vector equals the likelihood of the stored weights; pixel-wise invariance for masked pixels, also with nan and inf. Theorems: `C59_cost`, `C59_reported`, `C59_masked`. Over exact rationals with an abstract logarithm; the minimizer (iminuit or scipy) is any function that looks at the cost through its values. The covariance it returns is taken as it is.
* **C60 DLA transmission is a transmission** (proved). Model: ModelDla. Proof: Taylor bounds of exp by the mean value theorem; derivative of the profile. Theorems: `C60_range`, `C60_more`, `C60_order`, `C60_column_density`, `C60_wings`. Over the real numbers (no rounding, underflow or overflow); Coquelicot is used for derivatives; assumptions are the axioms of the standard library's reals and classical logic.
* **C61 The chi2 catalog lists every fitted quasar once, with its own values** (proved). Model: ModelChi2. Proof: rows built spectrum by spectrum, gather as concatenation; sizes of parameters by induction over the fits. Theorems: `C61_catalog`, `C61_ends`, `C61_fitted`. Columns are exact instead of f4/i4, and a string of arms longer than five characters is cut (as in the code). The degrees of freedom are copied; how they are computed is not claimed.
* **C62 Coadding averages resolution matrices diagonal by diagonal** (proved). Model: ModelSpectrum (coadd_reso, pad_rows, coadd_arms_forest, simple_coadd). Proof: loop over arms: the accumulated rows are functions of the pixel; sums over landing pixels as in C32; columns exchange of sums. Theorems: `C62_average`, `C62_sums`, `C62_simple_coadd`.
* **C63 Reported signal-to-noise values are those of the unmasked pixels** (proved). Model: ModelSpectrum (spec_init, set_forest_region, coadd_arms_forest). Proof: numpy sums of masked pixels vanish; counts of positive inverse variances; induction over pixels and arms, the square root being any function that is 0 at 0. Theorems: `C63_rsnr`, `C63_forest`, `C63_coadd`.
* **C64 MEANRESO is the width of the line spread function** (proved). Model: ModelMeanReso. Proof: bounds of weighted means of exponentials; monotone logarithm and square root; argmax of a list with a unique maximum. Theorems: `C64_gaussian`, `C64_constant`, `C64_wave`, `C64_scale`, `C64_masked`, `C64_nan`, `C64_few`.
* **C65 Noise smoothing is a moving average** (partial). Model: ModelFft, ModelSmooth. Proof: the transforms are written out as sums of cosines; telescoping sums give orthogonality; lower bound of the weight at distance zero refutes the width. Theorems: `C65_moving_average`, `C65_flat`, `C65_linear`, `C65_flat_ivar`, `C65_length`, `C65_width_refuted`. Proved except for the scale: C65_width_refuted shows that the scale is not the standard deviation in pixels (a factor 2 pi is missing in the frequencies).
* **C66 Which spectra take part** (proved). Model: ModelPipeline, ModelSpectrum. Proof: the forest containers are non-empty exactly if an unmasked pixel is in the forest (C25); catalog entry and RSNR are kept by every operation, by induction over the operations. Theorems: `C66_selection`, `C66_history`.
* **C67 Calibration tables are used at their own wavelengths** (partial). Model: ModelTables, ModelInterp, ModelVarFit. Proof: the steps of the table are those of np.diff; the interpolators are exact on nodes (C20, C22); deviations of steps are added up by induction over the rows. Theorems: `C67_accepts`, `C67_accepts_noise`, `C67_exact`, `C67_exact_noise`, `C67_round_trip`, `C67_positive`, `C67_extrapolation_refuted`, `C67_drift_partial`, `C67_drift_refuted`, `C67_equal_wavelengths_refuted`. Proved for equally spaced tables with increasing wavelengths (at least four rows for the noise calibration). C67_drift_partial and C67_drift_refuted: within the tolerance of the spacing check deviations add up, so a value may be used any number of rows away from its wavelength. C67_equal_wavelengths_refuted: a table with one wavelength repeated is accepted. C67_extrapolation_refuted: beyond the table the flux correction of a positive table may be negative.
* **C68 attributes.fits records what went into each iteration** (partial). Model: ModelAttributes: iterate with the file as a list of extensions and with a record of the tables given to each fit. Proof: the outcome equals that of iterate (equivalence of rank programs); a predicate on all leaves of the rank program describes the file after k iterations, by induction on the iterations; names are distinct because decimal numerals are. Theorems: `C68_same_program`, `C68_fit_inputs`, `C68_names`, `C68_distinct`, `C68_used`, `C68_second_to_last_partial`, `C68_final`, `C68_no_var_func`, `C68_start`, `C68_second_to_last_refuted`. Proved; the documented rule "second to last" holds with fitted variance functions (C68_second_to_last_partial) and fails with a fiducial var_lss (C68_second_to_last_refuted), where the file ends with one more set (-fit) and has no VAR_FUNC extension, so that it cannot be given to --noise-calibration (C68_no_var_func). Of VAR_STATS only the name is modelled.
* **C69 Results do not depend on the number of MPI ranks** (partial). Model: ModelFitter, ModelStack, ModelVarFit over n and m ranks. Proof: inversion of finished rank programs; stacked sums form a commutative monoid, so the totals over all ranks depend on the gathered spectra only up to their order; induction on the iterations. Theorems: `C69_fitting_partial`, `C69_iterate_partial`, `C69_run_partial`, `C69_error_bars_refuted`. Proved with a fiducial var_lss (exact arithmetic, no rounding), without additive noise and coadding 'after': for the continuum fitting (C69_fitting_partial) and for the spectra written by the whole run (C69_run_partial). With a fitted var_lss it is false: each rank starts with another subsample, so the error bars of the variance depend on the number of ranks (C69_error_bars_refuted).
* **C70 Nothing that takes part is lost** (partial). Model: ModelPipeline, ModelFitter, ModelIO, ModelDelta. Proof: inversion of the finished run into its stages; identity of a spectrum is kept by each stage; filters are characterised by their criteria; the files are a permutation of the valid spectra. Theorems: `C70_accounted`, `C70_no_arm_left_refuted`, `C70_one_arm_partial`. C70_accounted proves the whole chain up to the list of spectra in each delta file, when exposures are not re-read after the fit. The last sentence is false: arms are counted together before the fit and one by one after it, so a valid spectrum may be saved without any arm (C70_no_arm_left_refuted); a spectrum with a single arm keeps it (C70_one_arm_partial).
* **C71 Only requested, unmasked pixels carry weight** (partial). Model: ModelPipeline, ModelMasks, ModelSpectrum, ModelFitter, ModelDelta. Proof: two invariants of a spectrum (wavelengths in the window; spent values at masked wavelengths in all aliased arrays) established by reading and masking and kept by every later step, through the leaves of the rank's program; then the columns of the HDU.  For exposures: a slice has the same length only if it is everything, so an array cut more often than its continuum does not fit it and cannot be written. Theorems: `C71_window`, `C71_masked_partial`, `C71_masked_exposures_partial`, `C71_off_grid_refuted`. The window part is proved for all options. The mask part is proved without exposures read after the fit (C71_masked_partial; arms that are coadded after the fit have to be on one wavelength grid: C71_off_grid_refuted) and for exposures read after the fit (C71_masked_exposures_partial; an inverse variance cut to a single value, which numpy would repeat for all pixels, is an error in the model).
* **C72 The deltas are those of the spectra that were read** (proved). Model: ModelPipeline, ModelMasks, ModelSpectrum, ModelFitter, ModelDelta. Proof: a relation between the pixels of a spectrum as read and as held, composed step by step through reading, calibration (whose file is the one rank 0 broadcasts) and masks, and kept by every step of the fit; then the columns of the HDU. With coadding before the fit the pixels as read are those of the coadd, which is characterised by C32. Theorems: `C72_values`, `C72_coadded`.
* **C73 One weight formula for the whole survey** (proved). Model: ModelPipeline, ModelFitter, ModelSpectrum, ModelDelta. Proof: the selected spectra are unsmoothed and hold one object for the two inverse variances (invariant of reading, calibration and masks), the fit leaves the smoothing scale alone (invariant of all its steps), the weights of the fit (C47, C48) then hold for the written columns; no pair that is nan or infinite explains a finite weight other than zero. Theorems: `C73_one_formula`, `C73_fiducial`.
* **C74 The weights can be computed from attributes.fits** (proved). Model: ModelAttributes: continuum_fitting with the file. Proof: the ranks record the same tables for the last fits (lock step), the record on rank 0 is that of the extension before the last (C68), the interpolators keep the grid of the wavelength column (invariant of all updates); the weights of C48 then use them. Theorems: `C74_same_program`, `C74_last_fits`, `C74_recomputed`.
* **C75 The chi2 catalog of a run agrees with its delta files** (partial). Model: ModelChi2Run: continuum_fitting with the catalog of ModelChi2. Proof: each fit relates a spectrum to its result (same catalog entry; valid: chi2 is that of the arrays; invalid: -1), the relations compose over iterations and last steps on each rank (leaf), the ranks stay in lock step, the gathered rows are those of the merged lists; the sum pixel by pixel as in C20. Theorems: `C75_same_program`, `C75_catalog`, `C75_chi2_partial`, `C75_stale_refuted`, `C75_dof_refuted`. C75_catalog proves the rows, CONT_dof and the order; C75_chi2_partial the sum when the arms are coadded after the fit or nothing changes the spectra after it. Otherwise the sum is false: CONT_chi2 is not computed again after additive noise or the normalisation of the flux (C75_stale_refuted). With coadding after the fit CONT_dof counts the pixels before coadding while CONT_chi2 sums over the coadded ones (C75_dof_refuted).
* **C76 The continuum of every quasar can be computed from attributes.fits and the chi2 catalog** (proved). Model: ModelAttributes (the file) and ModelChi2Run (the catalog) of the same run; SpecContTables. Proof: the last fits are with one state of the fitter on all ranks (ranks in lock step), whose mean continuum is the last one recorded and saved (leaf); one fit gives the product pixel by pixel; the calibrations and the noise keep continuum and coefficients, the flux normalisation multiplies by the stacked flux of the final fitter, which is the one saved without a number; the catalog keeps the coefficients. Theorems: `C76_continuum`, `C76_final_table_refuted`. C76_continuum is the property; C76_final_table_refuted shows by a run of two iterations that the table CONT without a number does not give the continua. Not stated: coadding of the arms after the fit (there the continuum is a mean over arms), input and true continua (no coefficients). The mean flux is that of the input file, or 1.
* **C77 Uninitialised memory reaches no result but CONT in masked pixels of gaps** (partial). Model: ModelPipeline (the whole run) and ModelChi2Run (the catalog), each with two oracles for np.empty; SpecMemory. Proof: a relation between two spectra that differ in the continuum of masked pixels is kept by coadding, chi2, dropping of arms and writing (pixel by pixel); two parallel programs that make the same collective calls with related results end alike (relational lock step); a nan in the gap of a computed run gives the refutation. Theorems: `C77_not_after`, `C77_deltas_partial`, `C77_catalog_partial`, `C77_covered`, `C77_nan_refuted`, `C77_exposures_refuted`. C77_not_after and C77_covered hold for any contents. C77_deltas_partial and C77_catalog_partial need finite contents: C77_nan_refuted shows a run in which nan changes chi2. They exclude exposures read after the fit together with coadding after it, for which C77_exposures_refuted shows a run with other values of DELTA in a pixel that is not masked. In floating point a finite value above 1e154 overflows when squared, so it acts like an infinite one.
* **C78 Coefficients and covariance of a row of the chi2 catalog are from one fit** (proved). Model: ModelChi2Run (the catalog); SpecCoefs. Proof: each fit either keeps coefficients and covariance and is invalid, or replaces both by one answer of the minimizer; the relation is transitive over the iterations, all later steps keep both (leaf); the rows are those of the merged lists as in C75. Theorems: `C78_coefficients`, `C78_invalid_refuted`. C78_coefficients is the property for the rows; C78_invalid_refuted shows a run in which a row without a valid continuum keeps the coefficients of an earlier fit. Not stated: in a valid row the answer is that of the last fit (C76 gives the continuum from these coefficients).
* **C79 num_qso of the variance statistics bounds the number of quasars** (proved). Model: ModelVarFit; SpecNumQso. Proof: C42 gives the number of arms in each bin on every rank; a count over quasars by induction. Theorems: `C79_bounds`, `C79_quasars_refuted`. C79_bounds is the property; C79_quasars_refuted shows that the count itself is not the number of quasars.
* **C80 Signal-to-noise ratios of a run are those of the pixels used** (partial). Model: ModelPipeline; SpecSnrCut. Proof: MEANSNR is kept by calibration, masks, every step of the fit and dropping of arms (keys of lists, leaf); its value when the forest is cut is C63; a computed run with a sky mask refutes the property. Theorems: `C80_written`, `C80_own_pixels_partial`, `C80_masked_refuted`. C80_masked_refuted shows a run that writes a spectrum below the minimum of --min-forestsnr because pixels masked later still count. C80_written says which pixels MEANSNR is about in every run without coadding; C80_own_pixels_partial is the property without calibrations and masks. After coadding before the fit, MEANSNR is that of the coadded pixels (C63_coadd).

## What is modelled and what is not

| file | modelled | not modelled |
|---|---|---|
| mpi_utils.py | mpi_parse, mpi_fnc_bcast, balance_load; MPISaver as writes on rank 0 | logging |
| catalog.py | everything; `_read` as an arbitrary table or failure | fitsio |
| io.py | readers (coadd, exposures, tile, mock), true continuum look-up, resolution reader, read_deltas/save_deltas, range checks | argparse wiring, bytes of FITS files |
| spectrum.py | Spectrum (construction, forest, masks, weights, chi2, coadds, slicing, writing), Delta (read, write, coadd), class state | mean_resolution is modelled apart over the reals (C64); where spectra are written its value is arbitrary |
| masks.py | SkyMask, BALMask, DLAMask incl. catalog handling; DLA profile over the reals | link between the real profile and the rational pixels (C28 holds for every profile) |
| calibration.py | NoiseCalibrator, FluxCalibrator, reading of their tables (C67) | |
| mathtools.py | interpolators and both splines, mypoly1d, block covariance, SubsampleCov, get_smooth_ivar, get_median_outlier_mask | fft_gaussian_smooth is modelled apart over the reals (C65) and an arbitrary length-preserving map elsewhere; numba typing |
| picca_continuum.py | PiccaContinuumFitter, VarLSSFitter, FluxStacker; fiducial tables (C67); the attribute file (C68, C74, C76) and the chi2 catalog (C61, with `dof` C75); elsewhere saving is an access that may fail | headers of the attribute file; VAR_STATS beyond C56 |
| continuum_models/* | all three models, cost function, init and look-up | iminuit/scipy themselves; `method` labels |
| scripts/qsonic_fit.py | mpi_run_all and everything it calls | argparse, time stamps, tile mode combined with saving by healpix (refuted, C04) |
| scripts/qsonic_calib.py | whole program | ranks with different DELTA_LAMBDA (sums are cut to the shorter array) |
| scripts/qsonic_coadd_deltas.py | reading, coadding, grouping, writing | multiprocessing pools (map of a pure function) |

Limits worth knowing: rounding of floats is not modelled anywhere.  VarLSSFitter and the
mean continuum are modelled for finite input; where the fitter meets a non-finite delta the
model stops with an explicit "not modelled" error, so C56/C58 speak about finite pixels.

## Findings

Statements of the documentation or of the obvious contract that are false of the code; each
has a proved witness (a theorem `_refuted`, listed above), except where said.

* C04 tile-grouped queues saved by healpix overwrite files of other ranks (`C04_tile_queues_refuted`).
* C07 keep_surveys unset and exposures re-read after coadding: quasars are looked up in the file of
  another survey, or the run crashes (`C07_*_refuted`).
* C10 resolution matrices shift by one when a requested quasar is missing from the file.
* C11 qsonic-calib never reads the remainder of the delta files when their number is not a multiple
  of the number of ranks.
* C12 SystemExit inside a broadcast function leaves the other ranks waiting.
* C13 SkyMask is read by every rank on its own; a failure on some ranks deadlocks the run.
* C17 get_mean followed by get_mean_n_cov always raises.
* C19 block covariance of squares is positive for independent quantities.
* C22 a three-node not-a-knot spline uses uninitialised memory; C20 a one-node linear table is read
  out of bounds (`C20_single_node_out_of_bounds`).
* C25, C26 set_forest_region twice keeps old arms; slicing aliased dictionaries misaligns arrays.
* C30 eta-only noise calibration can make ivar negative.
* C36 a masked pixel halves the weight of the other delta; coadding three deltas depends on the
  order; deltas with and without resolution matrix cannot be coadded.
* C38 a mock analysis after a blinded one keeps DELTA_BLIND; a rank without quasars aborts.
* C39 nan parameters of a "successful" minimizer are accepted; a negative true continuum is accepted.
* C41 a pixel exactly at the upper edge makes FluxStacker.add raise.
* C44, C45 normalisation is not idempotent for cont_order >= 1; with 109 bins or more convergence is
  reported although a point moved by 0.33 of its error.
* C47, C48 weights are recomputed with the final (non-fiducial) var_lss when coadding after or with
  additive noise calibration; weights are stale after flux normalisation; eta enters twice.
* C48 exposures read after the fit never get a weight: their WEIGHT column is their IVAR column
  (C48_exposures), although the comment in mpi_read_exposures_after says "assign cont, forest weight".
* C49 exposures with an arm the coadd lacks raise RuntimeError; exposures starting bluewards are
  cut three times.
* C50 NaN passes the range checks; input continuum without a directory is accepted.
* C51 the wavelength consistency check compares the stored grid with itself.
* C53 documented outlier threshold is floored at one.
* C55 an idle rank, or a removal list with one TARGETID, stops qsonic-calib.
* C57 STACKED_FLUX wavelengths are not the bin centres unless the range is a multiple of the step;
  of two pixels that round to the same bin one is lost.
* C62, C64 coadded pixels that no arm covers get nan columns in the resolution matrix, and then
  MEANRESO of the coadd is nan although these pixels have no weight; a matrix with less than two
  diagonals above the main one makes writing raise IndexError.
* C65 the noise is smoothed with a Gaussian of sigma_pix / (2 pi) pixels instead of sigma_pix.
* C67 the tolerance of the spacing check adds up along a table, so values may be used any number of
  rows away from their wavelength; a table with one wavelength repeated passes the check; beyond its
  table a positive flux calibration may be extrapolated to negative values.
* C68 with a fiducial var_lss the second to last CONT extension is not what went into the last fits,
  and the file has no VAR_FUNC extension for --noise-calibration.
* C69 each rank starts with another jackknife subsample, so with a fitted var_lss the error bars of
  the variance, hence var_lss and the weights, depend on the number of ranks.
* C70 the skip fraction is compared with all arms together before the fit and with each arm after it,
  so a spectrum that was fitted may be saved without any HDU.
* C74 the weights of the last fits use var_lss and eta of the iteration before: the second to last
  VAR_FUNC extension, not the last one.
* C76 the extension CONT of attributes.fits is the mean continuum after the last update; the continua that
  are written were computed with CONT-k of the last iteration k.
* C75 CONT_chi2 is not computed again after additive noise or flux normalisation; with coadding
  after the fit CONT_dof still counts the pixels before coadding.
* C77 with arms coadded after the fit, CONT in gaps between the arms is what np.empty returned; if that is
  nan, infinite or so large that its square overflows, DELTA, IVAR and WEIGHT there and chi2 are nan.  Exposures
  read after the fit use this CONT also for pixels that are not masked in the exposure.
* C78 a row of the chi2 catalog with CONT_valid = false keeps the coefficients and the covariance of the last fit
  that succeeded.
* C79 num_qso (NUM_QSO of VAR_STATS, compared with min_num_qso) counts arms, not quasars.
* C80 MEANSNR and the quantity that --min-forestsnr is compared with are computed before calibration and masks: pixels
  masked later still count.
* Not stated as theorems: MEANSNR of a coadd without unmasked pixels is 0/0; a second
  FluxStacker.calculate divides again.

## Testing the theorems

`seeded/LOG.jsonl` records the wrong programs: each line is one edit of a model definition, the
claim it breaks and the theorems that stopped being provable (every failing proof was replaced by
`Admitted` in a scratch copy and the dependency graph of the .glob files tells which property
theorems rest on it).  Where nothing failed, either a theorem was tightened (named in the line) or
the edit is equivalent or breaks nothing that is claimed (said in the line).

## Trusted base

* The kernel of Coq 8.16.1 (and its standard library, mathcomp's ssreflect and Coquelicot as
  libraries of checked proofs; Coquelicot is used in ProofDla only).
* No axioms of our own, no functors or module types, no `Admitted`, no kernel check switched off.
* That the model says what the code does: the comments with file and line of every definition,
  the conventions above, and the table of what is not modelled.
* `Print Assumptions` for each property theorem:

  * Closed under the global context (no axioms): all 258 theorems not named below.
  * `C64_wave`: `ClassicalDedekindReals.sig_forall_dec`, `FunctionalExtensionality.functional_extensionality_dep`.
  * `C46_all_masked`, `C46_scale`, `C46_smooth`, `C53_mask_partial`, `C53_mask_refuted`, `C65_flat`, `C65_flat_ivar`, `C65_length`, `C65_linear`, `C65_moving_average`: `ClassicalDedekindReals.sig_not_dec`, `ClassicalDedekindReals.sig_forall_dec`, `FunctionalExtensionality.functional_extensionality_dep`.
  * `C60_column_density`, `C60_more`, `C60_order`, `C60_range`, `C60_wings`, `C64_constant`, `C64_few`, `C64_gaussian`, `C64_masked`, `C64_nan`, `C64_scale`, `C65_width_refuted`: `ClassicalDedekindReals.sig_not_dec`, `ClassicalDedekindReals.sig_forall_dec`, `FunctionalExtensionality.functional_extensionality_dep`, `Classical_Prop.classic`.

  These are axioms of the standard library (its real numbers, functional extensionality and
  classical logic).
