{
 "claims": [
  {
   "property": "C01",
   "status": "proved",
   "theorems": [
    "C01_chunk_roundtrip",
    "C01_chunk_roundtrip_exact",
    "C01_sparse_roundtrip",
    "C01_bit_identity_refuted"
   ],
   "note": "Value-level round trip proved for all arrays and chunk limits. The bit-level strengthening (sign of zero) is refuted: an all -0.0 chunk reads back as +0.0."
  },
  {
   "property": "C02",
   "status": "partial",
   "theorems": [
    "C02_layout",
    "C02_redeclared_refuted",
    "C02_masked_last_refuted"
   ],
   "note": "Proved for every history in which no channel name is declared both masked and unmasked (names resolved including the automatic ch<N> ones); refuted when a name changes its flag."
  },
  {
   "property": "C03",
   "status": "proved",
   "theorems": [
    "C03_template",
    "C03_unbooked",
    "C03_duplicate",
    "C03_signal_and_background"
   ],
   "note": "For scripts without exceptions, with each channel declared once and without explicitly stored zeros in sparse nominals (those corners are refuted under C02 and C11). Dense and sparse files."
  },
  {
   "property": "C04",
   "status": "proved",
   "theorems": [
    "C04_process_axis",
    "C04_process_order",
    "C04_nuisance_axis",
    "C04_nuisance_order",
    "C04_set_order",
    "C04_key_collision_refuted"
   ],
   "note": "The side condition on distinct natural-sort keys is necessary (refuted witness pdf01/PDF1)."
  },
  {
   "property": "C05",
   "status": "partial",
   "theorems": [
    "C05_metadata",
    "C05_mixed_constraint_refuted",
    "C05_mixed_constraint_sparse_refuted"
   ],
   "note": "Proved for every history in which no nuisance is booked constrained in one call and unconstrained in another; refuted otherwise (both copies get the wrong weight; sparse mode fails an assertion)."
  },
  {
   "property": "C06",
   "status": "proved",
   "theorems": [
    "C06_templates_reproduced"
   ],
   "note": "For the last booking of an asymmetric (symmetrize=None, kfactor 1) nuisance; the log-normal case needs templates of the nominal's sign, the normal case the scale factor at its initial value (that is the documented scaling)."
  },
  {
   "property": "C07",
   "status": "proved",
   "theorems": [
    "C07_average",
    "C07_conservative",
    "C07_linear",
    "C07_quadratic",
    "C07_asymmetric",
    "C07_rebooking_refuted"
   ],
   "note": "For the last booking of a nuisance on (channel, process), read back from the written tensors. Re-booking an asymmetric nuisance symmetrically leaves the old half-difference (refuted)."
  },
  {
   "property": "C08",
   "status": "proved",
   "theorems": [
    "C08_smooth_switch",
    "C08_saturated_slope"
   ],
   "note": "First and second derivative exhibited, second derivative continuous."
  },
  {
   "property": "C09",
   "status": "partial",
   "theorems": [
    "C09_same_yields",
    "C09_both_available",
    "C09_per_bin_masked_refuted"
   ],
   "note": "The same script written dense and sparse gives the same yields for every parameter point and scale factor whenever both computations succeed; both succeed for bin-independent factors and dense templates. Refuted: per-bin factors of the fit region together with masked channels work dense but fail sparse."
  },
  {
   "property": "C10",
   "status": "proved",
   "theorems": [
    "C10_canonical",
    "C10_own_entry"
   ],
   "note": "For histories with stable channel flags and constraint flags."
  },
  {
   "property": "C100",
   "status": "partial",
   "theorems": [
    "C100_stored",
    "C100_sources",
    "C100_parms",
    "C100_prefit_unchanged",
    "C100_succeeds",
    "C100_succeeds_no_hessian",
    "C100_no_edm",
    "C100_no_edm_refuted",
    "C100_no_hessian_impacts_refuted",
    "C100_no_hessian_fails_refuted",
    "C100_contour2D_refuted",
    "C100_external_refuted",
    "C100_lcurve_refuted"
   ],
   "note": "Proved whenever the Hessian is computed. Refuted: --noEDM without --noHessian, --noHessian with global impacts (silently missing) or with scans, contour scans, asymmetric impacts and warm starts (an error after the fit), --contourScan2D, and --externalPostfit with --noFit."
  },
  {
   "property": "C101",
   "status": "partial",
   "theorems": [
    "C101_partition",
    "C101_plots",
    "C101_totals",
    "C101_file_names",
    "C101_labels",
    "C101_default_labels",
    "C101_up_down",
    "C101_ratio_band",
    "C101_scaled",
    "C101_chi2_consistent",
    "C101_chi2_prefit",
    "C101_chi2_linear",
    "C101_chi2_base",
    "C101_chi2_mapping",
    "C101_chosen",
    "C101_keys",
    "C101_diff_band_refuted",
    "C101_diff_band",
    "C101_norm_refuted",
    "C101_scaled_refuted",
    "C101_labels_refuted",
    "C101_types_refuted",
    "C101_total_unc_refuted",
    "C101_chi2_refuted",
    "C101_automatic_refuted",
    "C101_chosen_refuted",
    "C101_keys_refuted"
   ],
   "note": "Proved for slices, for labels when there is a name for every file, for ratios to the prediction, for the chi2 and for the names of stored histograms. Refuted: the band with --diff, --normToData and --ratioToData with variations, fewer names than files, uncertainties of total yields, the automatic chi2, the choice of mappings by prefix and two names of histograms that no fit writes."
  },
  {
   "property": "C102",
   "status": "partial",
   "theorems": [
    "C102_curve",
    "C102_limits",
    "C102_no_points",
    "C102_parabola",
    "C102_hessian",
    "C102_ellipse",
    "C102_extent",
    "C102_scaled",
    "C102_levels",
    "C102_scales",
    "C102_map_gaussian",
    "C102_read",
    "C102_key2",
    "C102_file2",
    "C102_map_refuted",
    "C102_key2_refuted",
    "C102_file2_refuted",
    "C102_default_refuted"
   ],
   "note": "Proved for curves, parabola, ellipse, levels and scales. The map of a two-dimensional scan is mirrored in general (proved to be harmless for a Gaussian likelihood scanned in units of the uncertainties); names of two-dimensional scans and their files can coincide."
  },
  {
   "property": "C103",
   "status": "partial",
   "theorems": [
    "C103_combinations",
    "C103_combinations_once",
    "C103_axes",
    "C103_hists",
    "C103_prediction",
    "C103_slices",
    "C103_runs",
    "C103_stack",
    "C103_labels",
    "C103_lines",
    "C103_no_effect",
    "C103_split",
    "C103_split_complete",
    "C103_files",
    "C103_direction_refuted",
    "C103_processes_refuted",
    "C103_order_refuted",
    "C103_all_selected_refuted",
    "C103_norm_refuted",
    "C103_legend_refuted",
    "C103_split_files_refuted",
    "C103_channel_files_refuted"
   ],
   "note": "Proved for the prediction, the data, the stack, the normalisation, the slices and the names of files of a channel. False for the direction of variations (Up and Down are exchanged) and for variations together with --processes; other options end the script or mislabel plots."
  },
  {
   "property": "C104",
   "status": "partial",
   "theorems": [
    "C104_plots",
    "C104_channel_cov",
    "C104_params",
    "C104_correlation",
    "C104_slice_files",
    "C104_second_channel_refuted",
    "C104_second_channel_stops",
    "C104_suffix_refuted",
    "C104_overwritten_refuted",
    "C104_default_refuted",
    "C104_unknown",
    "C104_unknown_refuted",
    "C104_all_selected_refuted",
    "C104_prefit_params",
    "C104_prefit_params_refuted"
   ],
   "note": "Proved for the covariance of a mapping (any number of channels and slices), for that of a single channel and for the parameters. False for covariances stored per channel with more than one channel; other refutations are on names of files, defaults and options that end the script."
  },
  {
   "property": "C105",
   "status": "partial",
   "theorems": [
    "C105_plots",
    "C105_colours",
    "C105_total_refuted",
    "C105_colours_refuted",
    "C105_default_refuted",
    "C105_all_selected_refuted"
   ],
   "note": "Proved for all plots of a channel with a remaining axis. False for the total without a grouping, for more than twenty lines, for the default of -m and for channels without a remaining axis."
  },
  {
   "property": "C106",
   "status": "proved",
   "theorems": [
    "C106_independent",
    "C106_untouched",
    "C106_copyable",
    "C106_functions",
    "C106_made",
    "C106_used",
    "C106_fitter",
    "C106_plain_copy_fails",
    "C106_shared_refuted"
   ],
   "note": "Proved for all object graphs and programs. What the caller puts into the copy afterwards can be shared again (C106_shared_refuted)."
  },
  {
   "property": "C107",
   "status": "partial",
   "theorems": [
    "C107_accepts",
    "C107_jit",
    "C107_hessp",
    "C107_likelihood",
    "C107_tensors",
    "C107_type",
    "C107_linear",
    "C107_linear_quadratic",
    "C107_no_covariance",
    "C107_variances_refuted",
    "C107_documented_type_refuted",
    "C107_forced_refuted"
   ],
   "note": "Proved for all options. Refuted: the covariance fit without a covariance in the file announces the reciprocal variances and always raises; 'automatic' in full mode is not gamma as documented; a forced fit takes one step for any likelihood."
  },
  {
   "property": "C108",
   "status": "partial",
   "theorems": [
    "C108_unambiguous",
    "C108_abcd",
    "C108_extended",
    "C108_smooth",
    "C108_smooth_extended",
    "C108_iso",
    "C108_iso_smooth",
    "C108_iso_smooth_extended",
    "C108_mixture",
    "C108_axis_models",
    "C108_arity",
    "C108_unknown",
    "C108_several",
    "C108_default",
    "C108_expect",
    "C108_file_and_order_refuted",
    "C108_option_order_refuted",
    "C108_repeated_axis_refuted",
    "C108_start_refuted",
    "C108_combination_refuted"
   ],
   "note": "Proved for all lines. Refuted: the documented line with a file and an order is rejected; a repeated axis silently drops the first choice; with two models that have parameters of their own no starting value can be given; signal strengths and per-bin normalisations cannot be combined by default."
  },
  {
   "property": "C109",
   "status": "partial",
   "theorems": [
    "C109_scan",
    "C109_determined",
    "C109_unknown",
    "C109_derivatives",
    "C109_line",
    "C109_profile",
    "C109_gaussian",
    "C109_axis",
    "C109_refused",
    "C109_start_is_worst",
    "C109_opposite",
    "C109_start_refuted",
    "C109_opposite_refuted",
    "C109_same_parameter_refuted",
    "C109_label_refuted"
   ],
   "note": "Proved for all likelihoods and minimisers. Refuted: the scan starts at the worst point of its objective, where all gradients vanish; an angle cannot be told from the opposite one; the same parameter twice has a wrong gradient; labels of pairs are ambiguous."
  },
  {
   "property": "C11",
   "status": "partial",
   "theorems": [
    "C11_unpopulated",
    "C11_log_normal_value",
    "C11_normal_value",
    "C11_difference_value",
    "C11_systematic_atomic",
    "C11_nonfinite_systematic",
    "C11_nonfinite_process",
    "C11_rejected_process_refuted",
    "C11_norm_systematic_atomic_refuted",
    "C11_stored_zero_refuted"
   ],
   "note": "Values and confinement proved; non-finite templates are rejected; a rejected add_systematic changes nothing. Refuted: a rejected add_process stays registered on the process axis, a failing add_norm_systematic keeps earlier processes, explicitly stored zeros of a sparse nominal carry a variation."
  },
  {
   "property": "C110",
   "status": "partial",
   "theorems": [
    "C110_converges",
    "C110_edm",
    "C110_variances",
    "C110_position_refuted",
    "C110_frozen_refuted",
    "C110_no_iterations_refuted"
   ],
   "note": "Proved over the reals, where the model has no parameters besides those of interest. Refuted: with such parameters the rows of the systematics of interest are taken at wrong positions; a frozen parameter of interest makes the step fail; maxiter=0 returns zero as converged."
  },
  {
   "property": "C111",
   "status": "partial",
   "theorems": [
    "C111_files",
    "C111_mask",
    "C111_layouts_agree",
    "C111_skipped_mirrored",
    "C111_marked_not_mirrored",
    "C111_selection",
    "C111_global_selection",
    "C111_columns",
    "C111_no_nuisances_refuted",
    "C111_scaled_refuted"
   ],
   "note": "Proved for every fit with nuisances. Refuted: without nuisances giving include or exclude raises a TypeError; additive variations of a process that is zero at the default parameters are marked although they move nothing."
  },
  {
   "property": "C112",
   "status": "partial",
   "theorems": [
    "C112_uproot",
    "C112_root",
    "C112_readers_agree",
    "C112_depth",
    "C112_files",
    "C112_depth_refuted",
    "C112_dimensions_refuted",
    "C112_directory_refuted"
   ],
   "note": "Proved for patterns of the maximal depth. Refuted in general: uproot loses histograms beside directories when another pattern is deeper; two-dimensional histograms are read with ROOT only; a name that is a directory is an AttributeError with uproot."
  },
  {
   "property": "C113",
   "status": "partial",
   "theorems": [
    "C113_solve",
    "C113_edm",
    "C113_edm_unique",
    "C113_edm_final",
    "C113_saddle_refuted",
    "C113_gpu",
    "C113_gpu_refuted",
    "C113_harmless",
    "C113_frozen",
    "C113_frozen_refuted",
    "C113_refits_off",
    "C113_refits_on",
    "C113_refits_refuted"
   ],
   "note": "Proved for regular Hessians on the CPU. Refuted: with a frozen parameter the fit ends at its start values and the non-profiled impacts raise; on a GPU the function is logged instead of its value; at a saddle the value is negative."
  },
  {
   "property": "C114",
   "status": "partial",
   "theorems": [
    "C114_autodiff",
    "C114_stationary",
    "C114_curved",
    "C114_edm",
    "C114_filled",
    "C114_detects",
    "C114_empty_bin_refuted",
    "C114_full_autodiff",
    "C114_full_stationary",
    "C114_full_edm",
    "C114_full_unique",
    "C114_full_detects",
    "C114_full_chisq",
    "C114_full_nan_refuted"
   ],
   "note": "Lite mode, and full mode with normal nuisances, with Poisson or chi-square likelihood, without regularisation; full mode with Gamma nuisances (a numerical profile) and covariance fits are not covered. Refuted in lite mode for empty bins with normal nuisances at the edge of their range, and in full mode for empty bins whose profile is not a number."
  },
  {
   "property": "C115",
   "status": "partial",
   "theorems": [
    "C115_hessian",
    "C115_lite",
    "C115_prefit",
    "C115_covariance",
    "C115_full_exact",
    "C115_full_code",
    "C115_full_too_small",
    "C115_full_agree",
    "C115_full_differ",
    "C115_full_refuted",
    "C115_process_refuted"
   ],
   "note": "C115_hessian is for quadratic constraints (normal nuisances); the other theorems take the curvature of the constraint as given and hold for Gamma nuisances with their curvature at the point. The matrix of a covariance fit is taken as given. Refuted for full mode with profiling."
  },
  {
   "property": "C116",
   "status": "partial",
   "theorems": [
    "C116_thresholds",
    "C116_arguments",
    "C116_errors",
    "C116_calls",
    "C116_ignored",
    "C116_values",
    "C116_variations",
    "C116_total",
    "C116_absent_process",
    "C116_variance_refuted"
   ],
   "note": "Refuted for bins above the threshold, whose variance is clipped at the same number. That the variances of a histogram with default storage are its values is a property of boost_histogram taken as given."
  },
  {
   "property": "C117",
   "status": "partial",
   "theorems": [
    "C117_available",
    "C117_needed",
    "C117_off",
    "C117_full",
    "C117_total",
    "C117_sum",
    "C117_lite",
    "C117_profiled_lite",
    "C117_profiled_full",
    "C117_merged",
    "C117_empty_refuted"
   ],
   "note": "One bin, values of the nuisances given, without variations of nuisances (betavar). Refuted for additive nuisances in bins whose yield is not positive."
  },
  {
   "property": "C12",
   "status": "partial",
   "theorems": [
    "C12_scalar",
    "C12_pair",
    "C12_pair_conservative",
    "C12_one_for_all_refuted",
    "C12_pair_modes_refuted"
   ],
   "note": "One value or pair per listed process proved (average and conservative). Refuted: one uncertainty for several processes reaches only the first (zip), and up/down pairs with none/linear/quadratic symmetrisation raise TypeError."
  },
  {
   "property": "C13",
   "status": "partial",
   "theorems": [
    "C13_written",
    "C13_loop",
    "C13_no_extra",
    "C13_extra_axes",
    "C13_bad_axes",
    "C13_edges",
    "C13_names",
    "C13_axis_order_refuted",
    "C13_collision_refuted",
    "C13_left_over_axis_refuted",
    "C13_batched_edges_refuted",
    "C13_batched_size_refuted",
    "C13_empty_slice_refuted"
   ],
   "note": "For every history, geometry, content, mode and path the written file is that of the single bookings of the slices, provided the histogram has exactly the channel's axes and the extra axes (any order for the batched path, the channel's order for the loop). Outside these conditions the two paths and the single calls differ (refutations)."
  },
  {
   "property": "C14",
   "status": "partial",
   "theorems": [
    "C14_selection",
    "C14_each",
    "C14_unknown",
    "C14_all",
    "C14_written",
    "C14_variances_partial",
    "C14_variances_refuted"
   ],
   "note": "Values and names for every file and request, also from the calls of add_pseudodata to the fitted data set; refuted for the variances of files that have them."
  },
  {
   "property": "C15",
   "status": "proved",
   "theorems": [
    "C15_selection",
    "C15_expression_order_irrelevant",
    "C15_exact_name_refuted"
   ],
   "note": "Valid expression lists only: an exact name that is not a valid regex raises (refuted in that corner)."
  },
  {
   "property": "C16",
   "status": "proved",
   "theorems": [
    "C16_freeze_history",
    "C16_mask_length",
    "C16_idempotent",
    "C16_partition"
   ],
   "note": "All histories, including calls that raise."
  },
  {
   "property": "C17",
   "status": "partial",
   "theorems": [
    "C17_scan_restores",
    "C17_scan2D_restores",
    "C17_user_frozen_refuted"
   ],
   "note": "Restored exactly when none of the parameters selected by the scanned names was frozen before; refuted otherwise: scanning a user-frozen parameter releases it."
  },
  {
   "property": "C18",
   "status": "proved",
   "theorems": [
    "C18_grid",
    "C18_points_profile_the_parameter"
   ],
   "note": "For two or more points, positive range and uncertainty."
  },
  {
   "property": "C19",
   "status": "partial",
   "theorems": [
    "C19_spiral",
    "C19_every_cell",
    "C19_even_unfilled",
    "C19_even_refuted",
    "C19_prefit_centre_refuted"
   ],
   "note": "Termination, in-grid, no revisit and neighbour steps for every size; every cell filled for odd sizes. Refuted for even sizes (last row and column stay uninitialised); with use_prefit the centre of the grid is 0 instead of the current value."
  },
  {
   "property": "C20",
   "status": "partial",
   "theorems": [
    "C20_loss_ignores_frozen",
    "C20_gradient_and_hessian",
    "C20_fit_cannot_move",
    "C20_external_refuted"
   ],
   "note": "Proved for every frozen parameter that no external term uses: loss unchanged, gradient entry and Hessian row and column zero, no path of gradient/HVP steps moves it. Refuted otherwise: external terms read the raw parameters and do move a frozen one."
  },
  {
   "property": "C21",
   "status": "partial",
   "theorems": [
    "C21_reparametrisation",
    "C21_off_is_plain",
    "C21_offsets",
    "C21_group_shares_offset",
    "C21_ambiguous_is_error",
    "C21_accepted",
    "C21_external_refuted"
   ],
   "note": "All points, offsets, unblind and group lists without external terms; refuted with an external term (it is evaluated at the stored, unshifted parameters)."
  },
  {
   "property": "C22",
   "status": "proved",
   "theorems": [
    "C22_offsets",
    "C22_session"
   ],
   "note": "From any state at all, so after any history; prefit and toy generation see neutral offsets."
  },
  {
   "property": "C23",
   "status": "proved",
   "theorems": [
    "C23_roundtrip",
    "C23_nonnegative",
    "C23_unknown_signal"
   ],
   "note": "Distinct parameter names and distinct names in the request."
  },
  {
   "property": "C24",
   "status": "proved",
   "theorems": [
    "C24_penalty",
    "C24_full_minus_reduced",
    "C24_sqrt_poi_prior_rejected",
    "C24_accepted"
   ],
   "note": "Non-finite, zero and negative widths included."
  },
  {
   "property": "C25",
   "status": "proved",
   "theorems": [
    "C25_deviance",
    "C25_empty_bin",
    "C25_full_minus_reduced"
   ],
   "note": "lgamma is an arbitrary function."
  },
  {
   "property": "C26",
   "status": "proved",
   "theorems": [
    "C26_lite_profile_minimises",
    "C26_lite_loss_is_objective",
    "C26_lite_masked_keeps_default",
    "C26_lite_additive_default"
   ],
   "note": "Proved for all bins with positive expectation of the processes with MC uncertainty; the complementary case is C29."
  },
  {
   "property": "C27",
   "status": "partial",
   "theorems": [
    "C27_full_profile_minimises",
    "C27_full_loss_is_objective",
    "C27_chisq_defined",
    "C27_poisson_mult_defined",
    "C27_empty_bin_nan_refuted"
   ],
   "note": "Normal multiplicative and additive closed forms proved. Gamma in full mode, solved numerically in the code, is C88. Refuted in one corner: nobs = 0 with MC weights larger than one gives 0/0."
  },
  {
   "property": "C28",
   "status": "partial",
   "theorems": [
    "C28_cov_lite_additive",
    "C28_cov_full_additive",
    "C28_cov_full_multiplicative",
    "C28_cov_lite_multiplicative_partial",
    "C28_cov_lite_multiplicative_refuted"
   ],
   "note": "Three of four modes proved; lite multiplicative proved without masked bins and refuted with a masked bin (the masked bin is left free in the linear system and reset afterwards)."
  },
  {
   "property": "C29",
   "status": "partial",
   "theorems": [
    "C29_lower_envelope_partial",
    "C29_zero_active_refuted"
   ],
   "note": "Refuted when no MC-uncertain process contributes (n_active replaced by 1 in the profile although the expectation does not depend on beta); holds for positive active expectation."
  },
  {
   "property": "C30",
   "status": "partial",
   "theorems": [
    "C30_penalty_nonneg",
    "C30_full_minus_reduced_constant",
    "C30_additive_masked_refuted"
   ],
   "note": "All clauses proved except that the additive type does not mask the constraint of bins without MC statistics (refuted)."
  },
  {
   "property": "C31",
   "status": "partial",
   "theorems": [
    "C31_failed_fit",
    "C31_returned",
    "C31_every_run",
    "C31_interrupt_refuted"
   ],
   "note": "Every strategy and every exception that the code catches. Refuted for a KeyboardInterrupt, which is not caught and leaves the trial point."
  },
  {
   "property": "C32",
   "status": "partial",
   "theorems": [
    "C32_callback",
    "C32_first_comparison_refuted"
   ],
   "note": "Exact rule for every sequence of losses. Refuted at the first possible comparison: the check starts one iteration late (len(hist) > k)."
  },
  {
   "property": "C33",
   "status": "partial",
   "theorems": [
    "C33_load",
    "C33_duplicate_refuted",
    "C33_no_bbb_refuted"
   ],
   "note": "All pairs of duplicate-free lists, with and without covariance. Refuted for duplicated names (entries are overwritten) and for profile with disabled bin-by-bin statistics (exception after the values were set)."
  },
  {
   "property": "C34",
   "status": "partial",
   "theorems": [
    "C34_start",
    "C34_tau_refuted",
    "C34_scan_refuted",
    "C34_negative_refuted"
   ],
   "note": "After any session whose operations do not tune tau and do not scan a user-frozen parameter. Refuted otherwise: the L-curve optimisation leaves tau changed, a scan releases a user-frozen parameter, and a fit number below -1 keeps the previous data."
  },
  {
   "property": "C35",
   "status": "partial",
   "theorems": [
    "C35_linear_problems_are_quadratic",
    "C35_curvature_penalty",
    "C35_derivatives",
    "C35_one_step_reaches_the_minimum",
    "C35_otherwise_rejected",
    "C35_hessian_free_step",
    "C35_frozen_parameter_always_raises",
    "C35_frozen_refuted",
    "C35_lite_additive_refuted",
    "C35_normalised_penalty_refuted"
   ],
   "note": "Unique global minimum from every start for every positive definite quadratic; ValueError otherwise; conjugate gradients converge for every problem, move no frozen coordinate. The fitter's linearity test implies a quadratic likelihood where every lite additive bin has a positive active yield and every penalty is a sum of squares of affine functions, as the curvature of a channel or projection is. Refuted with frozen parameters (the Cholesky path always raises), for lite additive bins that turn negative (the step can increase the likelihood) and for the curvature of normalised yields, which the test accepts."
  },
  {
   "property": "C36",
   "status": "proved",
   "theorems": [
    "C36_floating_covariance",
    "C36_frozen_do_not_leak",
    "C36_nothing_frozen",
    "C36_hessian_free_rows"
   ],
   "note": "Both back ends; entries with a frozen index keep the previous covariance; ValueError iff the floating block is not positive definite; Hessian-free rows up to the tolerance, ValueError if a requested row is frozen."
  },
  {
   "property": "C37",
   "status": "partial",
   "theorems": [
    "C37_traditional_impacts",
    "C37_group_unique",
    "C37_group_below_total",
    "C37_group_of_one",
    "C37_larger_group_larger_impact",
    "C37_stat_below_total",
    "C37_larger_curvature_smaller_share",
    "C37_frozen_unconstrained_member_refuted"
   ],
   "note": "Complete for groups whose covariance block is positive definite. Refuted for a group with a frozen unconstrained member: its zero variance makes the solve fail."
  },
  {
   "property": "C38",
   "status": "partial",
   "theorems": [
    "C38_parameters_add_up",
    "C38_observables_add_up",
    "C38_gaussian_add_up",
    "C38_linear_predictions_convex",
    "C38_negative_data_curvature_refuted"
   ],
   "note": "Parameters, derived observables and the Gaussian variant; needs a positive semidefinite data curvature, proved for predictions linear in the parameters. Refuted without it: with a negative data curvature at a proper minimum the statistical column is NaN."
  },
  {
   "property": "C39",
   "status": "partial",
   "theorems": [
    "C39_envelope",
    "C39_removal",
    "C39_quadrature_difference",
    "C39_failed_refit_refuted",
    "C39_failed_scan_refuted"
   ],
   "note": "Sign, removal and NaN propagation of the combination hold for all inputs. Refuted: failed refits and scans are entered as zero shifts before the combination."
  },
  {
   "property": "C40",
   "status": "partial",
   "theorems": [
    "C40_restored",
    "C40_literal",
    "C40_frozen_during",
    "C40_metacharacter_refuted"
   ],
   "note": "Any scan outcome including exceptions. Refuted for a member whose name is an expression that matches a user-frozen parameter."
  },
  {
   "property": "C41",
   "status": "partial",
   "theorems": [
    "C41_groups_without_model_parameters_partial",
    "C41_groups_shifted",
    "C41_groups_refuted"
   ],
   "note": "Proved without model parameters. Refuted for every positive number of model parameters: group indices are compared with parameter indices without the offset."
  },
  {
   "property": "C42",
   "status": "proved",
   "theorems": [
    "C42_parameter_table",
    "C42_scale_is_product",
    "C42_product_by_name",
    "C42_groups",
    "C42_linear",
    "C42_accepts"
   ],
   "note": "Any nesting of composites. Also: groups are merged, the linearity flag implies an affine scale factor, and a composite exists for every non-empty list with one sign convention."
  },
  {
   "property": "C43",
   "status": "partial",
   "theorems": [
    "C43_mixture_partial",
    "C43_mixture_sorted",
    "C43_named_pair_refuted",
    "C43_same_process_refuted"
   ],
   "note": "Proved for lists in the order of the process axis; for any order the pairs are formed after sorting both lists by the axis, so the named pair is refuted: c_b_mixing scales a and b. Refuted for a process mixed with itself."
  },
  {
   "property": "C44",
   "status": "partial",
   "theorems": [
    "C44_axis_norm_partial",
    "C44_axis_exp_partial",
    "C44_axis_bernstein_partial",
    "C44_saturated_partial",
    "C44_axis_order_refuted",
    "C44_saturated_axis_order_refuted",
    "C44_saturated_channel_order_refuted",
    "C44_saturated_no_axes_refuted"
   ],
   "note": "Proved for axes requested in the order of the channel, any channel shape, all processes, masked channels. Refuted for another order: values are reshaped in the channel's order, so labels and bins disagree; for the saturated model also with the channels in another order, and a projection without axes raises TypeError."
  },
  {
   "property": "C45",
   "status": "partial",
   "theorems": [
    "C45_abcd_partial",
    "C45_extended_partial",
    "C45_smooth_partial",
    "C45_smooth_extended_partial",
    "C45_chebyshev",
    "C45_isomt_partial",
    "C45_isomt_extended_partial",
    "C45_isomt_smooth_partial",
    "C45_isomt_smooth_extended_partial",
    "C45_default",
    "C45_region_names",
    "C45_zero_denominator_refuted",
    "C45_default_corrected_refuted",
    "C45_empty_template_refuted",
    "C45_axis_order_refuted"
   ],
   "note": "Relation, confinement and values for every parameter point with non-zero denominators, all regions with disjoint bins and equal shapes; without correction nothing is scaled at the defaults. Refuted: zero denominators are replaced by 1e-10 or 1, with the correction the prediction of D at the defaults is A C / B and not the MC, regions with their free axes in another order are accepted and pair different bins."
  },
  {
   "property": "C46",
   "status": "partial",
   "theorems": [
    "C46_mu",
    "C46_mixture_partial",
    "C46_axis_norm",
    "C46_axis_exp",
    "C46_axis_bernstein",
    "C46_saturated_partial",
    "C46_abcd_partial",
    "C46_ext_abcd_partial",
    "C46_smooth_partial",
    "C46_smooth_ext_partial",
    "C46_smooth_names_at",
    "C46_composite_partial",
    "C46_negative_index_refuted",
    "C46_repeated_process_refuted",
    "C46_two_channels_refuted",
    "C46_overlapping_regions_refuted",
    "C46_saturated_channels_refuted",
    "C46_mixture_refuted"
   ],
   "note": "Counts hold for every accepted specification except negative indices in the two plain ABCD models (refuted). Names are distinct within one channel and for processes listed once; refuted for repeated processes, composites over two channels, overlapping regions, and channel or process names that contain each other."
  },
  {
   "property": "C47",
   "status": "proved",
   "theorems": [
    "C47_collects",
    "C47_total",
    "C47_two_steps",
    "C47_per_process"
   ],
   "note": "Any shape, subset and order, also for channels with flow bins and per process."
  },
  {
   "property": "C48",
   "status": "proved",
   "theorems": [
    "C48_value",
    "C48_one",
    "C48_nonneg",
    "C48_scale",
    "C48_per_process"
   ],
   "note": "The normalisation is the total of the channel; per process all columns together sum to one."
  },
  {
   "property": "C49",
   "status": "partial",
   "theorems": [
    "C49_cells",
    "C49_per_process",
    "C49_total",
    "C49_segments",
    "C49_positions",
    "C49_step_refuted",
    "C49_step_sizes_refuted",
    "C49_flow_refuted",
    "C49_flow_rebin_refuted",
    "C49_close_edges_refuted"
   ],
   "note": "Proved for ranges and single indices inside the axis, any rebinning with edges found without ambiguity, sums, in any combination. Refuted: a slice with a step keeps every n-th bin while the axis has merged bins; in channels with flow bins index 0 is the underflow and rebinning raises; edges closer than the isclose tolerance give more values than bins."
  },
  {
   "property": "C50",
   "status": "partial",
   "theorems": [
    "C50_uniform_partial",
    "C50_last_partial",
    "C50_two_parts_fail",
    "C50_order_refuted",
    "C50_exception_refuted"
   ],
   "note": "Proved when all parts agree on needing processes or the only one that does not is last. Refuted: the loop overwrites the observables with their sum, so later parts see summed processes, and a second such part raises."
  },
  {
   "property": "C51",
   "status": "partial",
   "theorems": [
    "C51_join",
    "C51_cut_iff",
    "C51_outer_commas",
    "C51_inner_commas_partial",
    "C51_nested_refuted"
   ],
   "note": "Joining gives the input for every string; every comma outside parentheses of a balanced string is a cut; no comma inside is one if parentheses are not nested. Refuted for nested parentheses."
  },
  {
   "property": "C52",
   "status": "partial",
   "theorems": [
    "svd_penalty_sum",
    "svd_penalty_nonneg",
    "svd_penalty_zero",
    "svd_penalty_common_scale",
    "svd_penalty_quadratic",
    "svd_penalty_proportional_partial",
    "svd_penalty_proportional_empty",
    "svd_divisor_nonzero",
    "svd_penalty_empty_bins",
    "svd_accepts",
    "svd_of_mapping",
    "svd_penalty_proportional_refuted",
    "svd_penalty_prediction_scale_refuted"
   ],
   "note": "Nonnegative, invariant under a common nonzero scaling of nominal and prediction, zero exactly for a flat relative prediction, no zero divisor. A proportional prediction is free of penalty only if no nominal bin is empty (or the factor is one)."
  },
  {
   "property": "C53",
   "status": "partial",
   "theorems": [
    "C53_names",
    "C53_distinct",
    "C53_accumulated",
    "C53_pseudodata_refuted",
    "C53_repeated_refuted",
    "C53_label_refuted"
   ],
   "note": "Documented, distinct names without pseudodata, with one pseudodata set, and for data fits with any number of sets. Refuted for Asimov or toys with several sets (labels accumulate), for several toy counts and for colliding labels."
  },
  {
   "property": "C54",
   "status": "proved",
   "theorems": [
    "C54_blinded",
    "C54_unblinded_data_blind",
    "C54_data_fit"
   ],
   "note": "Stated also semantically: a fit that is not blinded starts from a state independent of the data values."
  },
  {
   "property": "C55",
   "status": "proved",
   "theorems": [
    "C55_unpack_pack",
    "C55_pack_unpack",
    "C55_unpack_total",
    "C55_lengths_refuted"
   ],
   "note": "Both directions for all lengths and indices when the fitters have the same number of parameters (they are copies of each other)."
  },
  {
   "property": "C56",
   "status": "partial",
   "theorems": [
    "C56_expected",
    "C56_expected_total",
    "C56_cover",
    "C56_flow_ones",
    "C56_observed_channels",
    "C56_observed",
    "C56_observed_total",
    "C56_observed_cov",
    "C56_same_ranges",
    "C56_flow_category",
    "C56_flow_category_refuted"
   ],
   "note": "Every bin of every channel, with process, variation and impact axes, for all layouts without category axes in channels with flow bins; refuted for those. Data and their covariance blocks are attributed to the unmasked channels."
  },
  {
   "property": "C57",
   "status": "partial",
   "theorems": [
    "C57_value",
    "C57_parameter_order",
    "C57_accepted",
    "C57_missing_name",
    "C57_duplicate_parameter",
    "C57_duplicate_term",
    "C57_canonical",
    "C57_overflow_refuted"
   ],
   "note": "Any sequence of terms, dense or sparse, any parameter order. Refuted in one corner: a sparse Hessian on axes with an overflow bin is read with the wrong row length."
  },
  {
   "property": "C58",
   "status": "partial",
   "theorems": [
    "C58_text",
    "C58_parsed",
    "C58_names",
    "C58_channels",
    "C58_processes",
    "C58_data",
    "C58_template",
    "C58_found",
    "C58_nuisances",
    "C58_no_entry",
    "C58_norm",
    "C58_norm_pair",
    "C58_shape",
    "C58_rateparam",
    "C58_rate_refuted",
    "C58_shape_rate_refuted",
    "C58_order_refuted",
    "C58_star_refuted",
    "C58_gamma_refuted",
    "C58_lnU_refuted",
    "C58_group_refuted",
    "C58_short_line_refuted",
    "C58_wildcard_refuted",
    "C58_index_first_refuted",
    "C58_shapes_name_refuted",
    "C58_block_first_refuted",
    "C58_short_numbers_refuted",
    "C58_truncated_refuted"
   ],
   "note": "For every card laid out as header, observations, columns, systematics, directives: channels, data, processes, signals, histograms, nuisances and constraints, exact effect of lnN/lnU/shape*/rateParam entries, zero elsewhere. Refuted: yields from the rate line (the observation is used for counting channels), any order of lines, gmN, unconstrained lnU, groups, rateParam for all processes."
  },
  {
   "property": "C59",
   "status": "proved",
   "theorems": [
    "C59_prediction",
    "C59_default_is_nominal"
   ],
   "note": "Both systematic types, dense and sparse."
  },
  {
   "property": "C60",
   "status": "proved",
   "theorems": [
    "C60_masked_yields",
    "C60_masked_likelihood"
   ],
   "note": "Yields of unmasked bins and the full likelihood (any likelihood type, any bin-by-bin mode, constraints) are the same for two files that differ only in what is declared for masked channels, keeping the declared names; no regularisers or external terms."
  },
  {
   "property": "C61",
   "status": "proved",
   "theorems": [
    "C61_penalty_only"
   ],
   "note": "For every written file without blinding and external terms; the parameter model may compute its scale factors over all bins or over the fit bins as long as the two agree on the fit bins."
  },
  {
   "property": "C62",
   "status": "partial",
   "theorems": [
    "C62_constraint_width",
    "C62_additive_width",
    "C62_multiplicative_width_refuted"
   ],
   "note": "Proved for the additive type. Refuted for the multiplicative type, whose toys fluctuate with the absolute instead of the relative uncertainty."
  },
  {
   "property": "C63",
   "status": "partial",
   "theorems": [
    "C63_toy_variances",
    "C63_data_fit_variances",
    "C63_data_fit_refuted"
   ],
   "note": "Proved for toys. Refuted for the fit to data: set_nobs is called without the variances."
  },
  {
   "property": "C64",
   "status": "partial",
   "theorems": [
    "C64_row_labels",
    "C64_traditional_columns",
    "C64_global_columns",
    "C64_hessian_free_rows_partial",
    "C64_hessian_free_rows_refuted"
   ],
   "note": "Rows and columns of traditional and global impacts. Refuted for the Hessian-free rows with unconstrained non-POI model parameters and nuisances of interest: the offset is the number of POIs instead of model parameters."
  },
  {
   "property": "C65",
   "status": "partial",
   "theorems": [
    "C65_nonprofiled_refits",
    "C65_nonprofiled_succeeds",
    "C65_global_asym",
    "C65_gaussian_limit",
    "C65_sources",
    "C65_group_members",
    "C65_labels_partial",
    "C65_labels_two_calls_refuted",
    "C65_nonprofiled_direction_refuted"
   ],
   "note": "State, shifts and groups for every fit function; agreement with C_ki sqrt(cw_i) in the quadratic case. Refuted: the non-profiled entries are nominal minus refit, so same-sided shifts end up on the wrong side of the envelope; labels are in the order of freezing while rows are in parameter order, so two freeze calls can swap them."
  },
  {
   "property": "C66",
   "status": "partial",
   "theorems": [
    "C66_freeze_groups",
    "C66_user_frozen_released_refuted"
   ],
   "note": "All scans and groups whose member names match only themselves as expressions. Refuted otherwise: a metacharacter releases a user-frozen parameter for the remaining groups."
  },
  {
   "property": "C67",
   "status": "partial",
   "theorems": [
    "C67_saturated_setup",
    "C67_negative_pois_raise",
    "C67_test_unavailable_refuted"
   ],
   "note": "Layout and centres for every model and projection. Refuted availability: the saturated model has non-negative strengths, so a composite with POIs that may be negative raises ValueError."
  },
  {
   "property": "C68",
   "status": "proved",
   "theorems": [
    "C68_signal_strengths",
    "C68_signals_not_first_refuted"
   ],
   "note": "The signals come first on the process axis (guaranteed by the writer, C04); without that it is refuted."
  },
  {
   "property": "C69",
   "status": "partial",
   "theorems": [
    "C69_ratio_partial",
    "C69_taken",
    "C69_select_refuted",
    "C72_processes_refuted"
   ],
   "note": "Ratio-like mappings honour the lists. Refuted for Select and AngularCoefficients: their inclusive result is computed from observables summed over all processes."
  },
  {
   "property": "C70",
   "status": "partial",
   "theorems": [
    "C70_columns_partial",
    "C70_order_refuted"
   ],
   "note": "Proved for lists in the order of the process axis; refuted otherwise: values are in axis order, labels in the order of the request."
  },
  {
   "property": "C71",
   "status": "proved",
   "theorems": [
    "C71_values",
    "C71_proportional",
    "C71_asymmetry_range",
    "C71_difference_refuted"
   ],
   "note": "All four kinds. Difference normalises both operands although its description does not say so."
  },
  {
   "property": "C72",
   "status": "partial",
   "theorems": [
    "C72_coefficients_partial",
    "C72_plain",
    "C72_lam_tung_partial",
    "C72_selected_helicity_refuted",
    "C72_processes_refuted"
   ],
   "note": "Any position of the helicity axis, any selection, rebinning and sum on the other axes. Refuted with a selection on the helicity axis itself: it replaces numerator and denominator."
  },
  {
   "property": "C73",
   "status": "proved",
   "theorems": [
    "C73_projection",
    "C73_selection",
    "C73_normalized_rows",
    "C73_positive"
   ],
   "note": "For every function that is a jacobian in the sense of partial derivatives."
  },
  {
   "property": "C74",
   "status": "partial",
   "theorems": [
    "C74_meaning",
    "C74_colon",
    "C74_index_partial",
    "C74_last_bin_refuted",
    "C74_unknown_axis_refuted"
   ],
   "note": "Round trip from an abstract list of selections through its text for all names and integers. Refuted: the index -1 selects the empty slice(-1, 0); an unknown axis with sum or rebin is an error only in last position."
  },
  {
   "property": "C75",
   "status": "partial",
   "theorems": [
    "C75_key_injective",
    "C75_ratio_key",
    "C75_angular_key",
    "C75_select_key",
    "C75_select_key_refuted"
   ],
   "note": "Injective for all classes that put all arguments in the key; refuted for Select, whose key lacks the channel."
  },
  {
   "property": "C76",
   "status": "partial",
   "theorems": [
    "C76_select_procs",
    "C76_ratio_procs",
    "C76_ratio_selections",
    "C76_angular_procs_partial",
    "C76_angular_procs_refuted"
   ],
   "note": "Select and Ratio for all arguments; AngularCoefficients only if a third argument is present, refuted otherwise."
  },
  {
   "property": "C77",
   "status": "partial",
   "theorems": [
    "C77_gradient_partial",
    "C77_true_gradient",
    "C77_gradient_wrong",
    "C77_gradient_refuted",
    "C77_objective_wrong",
    "C77_objective_refuted"
   ],
   "note": "True for vanishing minima of the likelihoods; refuted otherwise, and the jacobian of the objective is refuted for every vector."
  },
  {
   "property": "C78",
   "status": "partial",
   "theorems": [
    "C78_root",
    "C78_bands_partial",
    "C78_level",
    "C78_positive_error",
    "C78_zero_refuted",
    "C78_limit",
    "C78_normal",
    "C78_negative",
    "C78_bands_negative_refuted"
   ],
   "note": "Every observation (also negative), every pair of errors: exactly one limit, separating the values with CLs above and below the level, for every log-concave distribution function, in particular the normal one. Expected bands are the observed limits for fluctuations that are not negative; refuted for negative ones, where the observed limit is always larger."
  },
  {
   "property": "C79",
   "status": "partial",
   "theorems": [
    "C79_value_partial",
    "C79_missing",
    "C79_value_refuted"
   ],
   "note": "Parameters of interest and systematics; refuted for model parameters that are not of interest."
  },
  {
   "property": "C80",
   "status": "partial",
   "theorems": [
    "C80_dataset_partial",
    "C80_asimov",
    "C80_toy",
    "C80_toy_refuted",
    "C80_unblinded",
    "C80_blinding_refuted"
   ],
   "note": "Data set and prediction right for data and asimov fits; refuted for toys and for blinding."
  },
  {
   "property": "C81",
   "status": "partial",
   "theorems": [
    "C81_results_map",
    "C81_nothing_lost",
    "C81_store",
    "C81_names",
    "C81_names_good",
    "C81_scan_names",
    "C81_expected_kept",
    "C81_scan_kinds",
    "C81_select_refuted",
    "C81_scan2D_refuted"
   ],
   "note": "The results are a finite map from (mapping, channel, name); everything stored for the expectations of mappings with different keys is kept. Refuted for two Selects and for two-dimensional scans."
  },
  {
   "property": "C82",
   "status": "partial",
   "theorems": [
    "C82_extension",
    "C82_default_extension",
    "C82_total",
    "C82_postfix_distinct",
    "C82_directory_refuted"
   ],
   "note": "For every directory and every name without a directory part; different postfixes always give different files. Refuted for names with a dot in a directory."
  },
  {
   "property": "C83",
   "status": "partial",
   "theorems": [
    "C83_data",
    "C83_pseudodata",
    "C83_once",
    "C83_default_names_refuted"
   ],
   "note": "Every history that can be written. Refuted: pseudodata added without a name to two channels cannot be written."
  },
  {
   "property": "C84",
   "status": "partial",
   "theorems": [
    "C84_channels",
    "C84_processes",
    "C84_points",
    "C84_data",
    "C84_template",
    "C84_nuisances",
    "C84_no_effect",
    "C84_effect",
    "C84_as_normal",
    "C84_as_lognormal",
    "C84_yields",
    "C84_accepted",
    "C84_mergeable",
    "C84_type_refuted",
    "C84_masked_refuted",
    "C84_sparse_refuted",
    "C84_dropped_refuted",
    "C84_negative_refuted",
    "C84_collision_refuted",
    "C84_pseudodata_refuted",
    "C84_signal_refuted",
    "C84_constraint_refuted",
    "C84_name_cut_refuted",
    "C84_long_name_refuted",
    "C84_channel_refuted"
   ],
   "note": "Any list of dense files of scripts, any renaming whose process names are not longer than the old ones: channels, data, templates, nuisances and their metadata, effects and predictions are kept, and the script succeeds. Refuted: masked channels, sparse files, negative yields, nuisances without effect, types of systematics that differ (only the variations by one standard deviation are kept), pseudodata, longer process names."
  },
  {
   "property": "C85",
   "status": "partial",
   "theorems": [
    "C85_impacts",
    "C85_total",
    "C85_rows",
    "C85_asym",
    "C85_print",
    "C85_print_one",
    "C85_print_unknown",
    "C85_print_nonprofiled",
    "C85_asym_fails",
    "C85_pulls",
    "C85_pulls_asym",
    "C85_bin",
    "C85_bin_key",
    "C85_largest",
    "C85_asym_refuted",
    "C85_sort_refuted",
    "C85_gaussian_refuted",
    "C85_frozen_order_refuted",
    "C85_prior_refuted"
   ],
   "note": "Every symmetric table and every nonprofiled one, all sizes and names. Refuted: other asymmetric impacts cannot be printed, sorting is by signed value, Gaussian impacts on observables, pulls of sources that are not in the order of the parameters."
  },
  {
   "property": "C86",
   "status": "partial",
   "theorems": [
    "C86_printed",
    "C86_asym_missing",
    "C86_contours_refuted",
    "C86_contour_order_refuted",
    "C86_contour_subset_refuted",
    "C86_prefit_refuted"
   ],
   "note": "Symmetric uncertainties: all filters, sortings and directions. Asymmetric ones: refuted, they are never found in the file of a fit."
  },
  {
   "property": "C87",
   "status": "partial",
   "theorems": [
    "C87_submatrix",
    "C87_order",
    "C87_all",
    "C87_requested",
    "C87_found",
    "C87_default",
    "C87_missing",
    "C87_toys_refuted",
    "C87_flow_refuted",
    "C87_empty_refuted"
   ],
   "note": "All layouts without flow bins; refuted for channels with flow bins."
  },
  {
   "property": "C88",
   "status": "partial",
   "theorems": [
    "C88_threshold",
    "C88_positive",
    "C88_value",
    "C88_valley",
    "C88_minimum",
    "C88_no_events",
    "C88_step",
    "C88_rest",
    "C88_loop_rest",
    "C88_loop_reach",
    "C88_loop_undefined",
    "C88_no_threshold_refuted",
    "C88_all_bins_converge_refuted",
    "C88_negative_yield_refuted",
    "C88_fifty_rounds_refuted"
   ],
   "note": "The one-dimensional reduction, its single valley, the unique joint minimum and the direction of the steps are proved for all bins with yields >= 0 and one process with uncertainty expected. Missing: a rate of convergence (the last step is a Newton step without bound). Refuted: bins without finite threshold stop all others; negative yields; fifty rounds."
  },
  {
   "property": "C89",
   "status": "partial",
   "theorems": [
    "C89_joint",
    "C89_unique",
    "C89_covariance_matrix",
    "C89_same_variances",
    "C89_prefit",
    "C89_prefit_variations",
    "C89_correlated",
    "C89_profiled_shift",
    "C89_correlated_frozen_refuted",
    "C89_uncorrelated_postfit_refuted"
   ],
   "note": "Proved for all sizes, curvatures and derivatives; refuted: variations with correlations of a frozen parameter are 0/0, and variations after the fit, which are made one parameter at a time, do not add up to the variance."
  },
  {
   "property": "C90",
   "status": "partial",
   "theorems": [
    "C90_prefit",
    "C90_postfit",
    "C90_free_parameter",
    "C90_pseudo_inverse",
    "C90_normalised",
    "C90_normalised_residuals",
    "C90_ndfsat",
    "C90_signal_strength_refuted",
    "C90_unprofiled_postfit_refuted",
    "C90_empty_bin_refuted",
    "C90_ndfsat_frozen_refuted",
    "C90_ndfsat_prior_refuted"
   ],
   "note": "Proved for linear Gaussian models of every size if every floating parameter has a constraint. Refuted otherwise: with one free parameter the covariance of the fitted residuals is singular."
  },
  {
   "property": "C91",
   "status": "partial",
   "theorems": [
    "C91_scan",
    "C91_frozen_mode",
    "C91_determined",
    "C91_unknown",
    "C91_warm_start",
    "C91_frozen_start",
    "C91_profile",
    "C91_table",
    "C91_frozen_mode_refuted",
    "C91_frozen_parameter_refuted",
    "C91_observable_refuted"
   ],
   "note": "Proved for every minimiser, likelihood and mode. Refuted for frozen parameters (mode frozen raises, scanning one starts at NaN) and for observables, whose interval is a value and not a distance."
  },
  {
   "property": "C92",
   "status": "partial",
   "theorems": [
    "C92_booked_one",
    "C92_booked_two",
    "C92_booked_split",
    "C92_booked_conservative",
    "C92_rejected",
    "C92_written",
    "C92_profile",
    "C92_again",
    "C92_bbb_one",
    "C92_bbb_square",
    "C92_bbb_many",
    "C92_masked",
    "C92_sparse",
    "C92_bbb_refuted",
    "C92_bbb_many_refuted",
    "C92_masked_refuted",
    "C92_sparse_refuted",
    "C92_again_refuted",
    "C92_unconstrained_refuted",
    "C92_shared_name_refuted",
    "C92_sparse_broadcast_refuted"
   ],
   "note": "Proved for dense writers without masked channels and without statistical uncertainties. Refuted with masked channels, in sparse mode, with add_bin_by_bin_stat_to_data_cov, for a second write, an unconstrained variation and a name used in both ways."
  },
  {
   "property": "C93",
   "status": "partial",
   "theorems": [
    "C93_requested",
    "C93_written",
    "C93_fit_channels",
    "C93_sigma",
    "C93_sigma_nominal",
    "C93_nominal",
    "C93_rejected",
    "C93_lite_refuted",
    "C93_additive_refuted",
    "C93_empty_refuted",
    "C93_flow_refuted",
    "C93_masked_source_refuted",
    "C93_broadcast_refuted",
    "C93_shared_axis_refuted"
   ],
   "note": "Proved for sources without masking and channels without flow bins. Refuted: ignored in mode lite (the default) and with additive nuisances, dropped where the nominal yield is not positive, requests accepted but not writable with a masked source or flow bins in one channel, channels that share an axis."
  },
  {
   "property": "C94",
   "status": "partial",
   "theorems": [
    "C94_roundtrip",
    "C94_duplicate",
    "C94_none",
    "C94_empty_list_refuted",
    "C94_bytes_refuted",
    "C94_shape_refuted",
    "C94_nul_refuted",
    "C94_slash_refuted",
    "C94_absolute_refuted",
    "C94_dot_refuted",
    "C94_bits_refuted"
   ],
   "note": "Proved for plain names and keys, numeric arrays and non-empty lists of strings without zero bytes. Refuted: empty lists, bytes, shapes of string arrays, zero bytes, names with slashes, the sign of zeros."
  },
  {
   "property": "C95",
   "status": "partial",
   "theorems": [
    "C95_curvature",
    "C95_unique",
    "C95_tradeoff",
    "C95_autodiff",
    "C95_scan",
    "C95_optimise",
    "C95_one_parameter",
    "C95_no_bbb",
    "C95_frozen",
    "C95_profiled_refuted",
    "C95_asimov_refuted",
    "C95_external_refuted",
    "C95_optimise_refuted",
    "C95_sign_refuted",
    "C95_minimum_refuted"
   ],
   "note": "Proved without external terms and where the stored nuisances beta are the profiled ones. Refuted: bin-by-bin statistics with profiled nuisances, no bin-by-bin statistics (an exception), external terms, frozen parameters, minima with zero data term, and the optimisation."
  },
  {
   "property": "C96",
   "status": "partial",
   "theorems": [
    "C96_fields",
    "C96_metadata",
    "C96_complete",
    "C96_layout",
    "C96_old_layout",
    "C96_nominal",
    "C96_dense_sparse",
    "C96_current",
    "C96_kstat",
    "C96_agree",
    "C96_apply",
    "C96_observed",
    "C96_full_error",
    "C96_full_one",
    "C96_full_square",
    "C96_masked_old",
    "C96_key_old",
    "C96_cancel_refuted",
    "C96_additive_refuted",
    "C96_negative_refuted",
    "C96_full_refuted",
    "C96_masked_refuted"
   ],
   "note": "Proved for lite mode and files whose bins all have data. Refuted: full mode with a file that stores hkstat (an error, or every bin multiplied by the sum of all betas), masked bins of files without metadata (the data histograms fail, the flag is a KeyError), negative bins with hkstat = 0, bins whose processes cancel."
  },
  {
   "property": "C97",
   "status": "partial",
   "theorems": [
    "C97_dense",
    "C97_issues",
    "C97_zero_systs",
    "C97_still_procs",
    "C97_empty_data",
    "C97_zero_norm",
    "C97_low_yield",
    "C97_high_unc",
    "C97_low_data",
    "C97_extreme",
    "C97_no_data",
    "C97_option",
    "C97_count_refuted",
    "C97_extreme_refuted",
    "C97_negative_refuted",
    "C97_flow_refuted",
    "C97_unknown_refuted"
   ],
   "note": "Proved for dense files whose channels have no flow. Refuted: the printed number of low data bins (the number of axes), large variations in the other direction, negative predictions, channels with flow, unknown channel names. The first check (channels without data histogram) can never report."
  },
  {
   "property": "C98",
   "status": "partial",
   "theorems": [
    "C98_pulls",
    "C98_ungrouped",
    "C98_grouped",
    "C98_bin",
    "C98_bin_grouped",
    "C98_merge",
    "C98_largest",
    "C98_descending",
    "C98_sort_difference",
    "C98_sort_both",
    "C98_sort_missing",
    "C98_two_sided",
    "C98_one_sided",
    "C98_no_impacts",
    "C98_pull_traces",
    "C98_sort_reference",
    "C98_load",
    "C98_load_reference",
    "C98_nothing",
    "C98_with_reference",
    "C98_formats",
    "C98_files",
    "C98_frozen_order_refuted",
    "C98_asym_grouped_refuted",
    "C98_asym_normalize_refuted",
    "C98_asym_constraints_refuted",
    "C98_up_down_refuted",
    "C98_asym_traditional_refuted",
    "C98_descending_refuted",
    "C98_asym_box_refuted",
    "C98_channel_files_refuted",
    "C98_channel_refuted",
    "C98_bin_no_diff_refuted",
    "C98_scale_zero_refuted",
    "C98_stat_refuted"
   ],
   "note": "Proved for symmetric impacts and pulls. Refuted for asymmetric ones: grouped bars, their normalisation, the constraints, up and down, the reference boxes, and the traditional ones cannot be plotted ungrouped. Also refuted: --sortDescending with --num, files of several channels, the choice of a channel, --pullsNoDiff on bins, --scaleImpacts 0, --stat with --normalize, the pulls beside asymmetric impacts whose parameters are in another order."
  },
  {
   "property": "C99",
   "status": "partial",
   "theorems": [
    "C99_dense",
    "C99_flat",
    "C99_same_histogram",
    "C99_prediction",
    "C99_check",
    "C99_one_entry",
    "C99_dimension",
    "C99_dimension_refuted",
    "C99_flow_refuted",
    "C99_repeated_total_refuted",
    "C99_repeated_variation_refuted",
    "C99_repeated_clip_refuted",
    "C99_short_variation_refuted"
   ],
   "note": "Proved for one and two dimensions, coordinates without repetitions and channels without flow bins. Refuted: three dimensions (dense mode only), flow bins, repeated coordinates (totals, variations, clipping of negative entries), and variations that end before the nominal (an error in sparse mode only)."
  }
 ]
}