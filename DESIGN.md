# Formal model of rabbit (WMass) in Rocq/Coq 8.16.1

## Layout

* `properties.jsonl` - the properties in English.
* `rocq/theories/<Area>_Model.v` - transcription of the python code, definition by
  definition; each definition cites file and lines in /repo and states its
  simplifications.
* `rocq/theories/<Area>_Spec.v` - the vocabulary the theorems are stated in. It does not
  import the model (except for plain data types) and can be read with the English
  statement only.
* `rocq/theories/<Area>_Proof.v` - lemmas and proofs.
* `rocq/theories/<Area>_Props.v` - the final theorems, each followed by a concrete
  `Example` meeting its hypotheses, and `Print Assumptions`.
* `MANIFEST.json` - property -> theorem names and status.
* `seeded/LOG.jsonl` - log of wrong-program experiments.

## Trusted base

* The Coq 8.16.1 kernel (including `vm_compute`).
* Theorems about real-valued formulas use the standard library reals; `Print Assumptions`
  then lists `ClassicalDedekindReals.sig_forall_dec`, `ClassicalDedekindReals.sig_not_dec`,
  `FunctionalExtensionality.functional_extensionality_dep` and, for some analysis lemmas,
  `Classical_Prop.classic`. Structural theorems are axiom free.
* Modelling: floating point numbers are modelled by real numbers (no rounding, no
  overflow) in the analytic parts, by an arbitrary type with a zero test in the structural
  parts; numpy, h5py, tensorflow, scipy and hist are modelled by the operations the code
  uses, as cited in each definition. Not modelled: compression filters, parallelism inside
  tensorflow, automatic differentiation itself, logging, argument parsing and plotting.

## Property by property

* **C01 Chunked HDF5 storage is lossless** (proved) - Modelled: h5pyutils_write/h5pyutils_read chunk splitting, elision of zero chunks, sparse triples, file store as a list of datasets (`Storage_*`). Proof: induction over the chunk loop, element index arithmetic.
  Theorems: `C01_chunk_roundtrip`, `C01_chunk_roundtrip_exact`, `C01_sparse_roundtrip`, `C01_bit_identity_refuted`.
  Value-level round trip proved for all arrays and chunk limits. The bit-level strengthening (sign of zero) is refuted: an all -0.0 chunk reads back as +0.0.
* **C02 Channel layout partitions the bin range** (partial) - Modelled: TensorWriter declarations and write() as a state machine over an arbitrary number type (`Writer_Model`), reader channel ranges; histories are arbitrary lists of declarations. Proof: invariant describing the channel dictionary as the ordered dictionary of unmasked then masked declarations (`Writer_Layout`).
  Theorems: `C02_layout`, `C02_redeclared_refuted`, `C02_masked_last_refuted`.
  Proved for every history in which no channel name is declared both masked and unmasked (names resolved including the automatic ch<N> ones); refuted when a name changes its flag.
* **C03 Nominal templates land in the right bins and processes** (proved) - Modelled: TensorWriter declarations and write() as a state machine over an arbitrary number type (`Writer_Model`), reader channel ranges; histories are arbitrary lists of declarations. Proof: state invariant (`Writer_State`), cell-disjointness of the block writes, argsort/gather reasoning for the sparse layout (`Writer_Tensor`), denotation of histories (`Writer_Denote`, `Writer_Master`).
  Theorems: `C03_template`, `C03_unbooked`, `C03_duplicate`, `C03_signal_and_background`.
  For scripts without exceptions, with each channel declared once and without explicitly stored zeros in sparse nominals (those corners are refuted under C02 and C11). Dense and sparse files.
* **C04 Process and nuisance order in the file does not depend on booking order** (proved) - Modelled: TensorWriter declarations and write() as a state machine over an arbitrary number type (`Writer_Model`), reader channel ranges; histories are arbitrary lists of declarations. natural_sort keys are modelled character by character (`Names_Model`). Proof: a sorted list without key collisions is determined by its set.
  Theorems: `C04_process_axis`, `C04_process_order`, `C04_nuisance_axis`, `C04_nuisance_order`, `C04_set_order`, `C04_key_collision_refuted`.
  The side condition on distinct natural-sort keys is necessary (refuted witness pdf01/PDF1).
* **C05 Metadata index vectors point at the declared nuisances** (partial) - Modelled: TensorWriter declarations and write() as a state machine over an arbitrary number type (`Writer_Model`), reader channel ranges; histories are arbitrary lists of declarations. Proof: the bookkeeping is a fold over the declared (name, kwargs) pairs (`Writer_Meta`).
  Theorems: `C05_metadata`, `C05_mixed_constraint_refuted`, `C05_mixed_constraint_sparse_refuted`.
  Proved for every history in which no nuisance is booked constrained in one call and unconstrained in another; refuted otherwise (both copies get the wrong weight; sparse mode fails an assertion).
* **C06 Template variations are reproduced at theta = +-1** (proved) - Modelled: `_init_logk_scaled` and `_compute_yields_noBBB` for dense and sparse input (`Yields_Model`), fed with the workspace written by the writer model. Proof: `yields_prediction` (computed yields = documented formula on the history) with a one-hot parameter vector.
  Theorems: `C06_templates_reproduced`.
  For the last booking of an asymmetric (symmetrize=None, kfactor 1) nuisance; the log-normal case needs templates of the nominal's sign, the normal case the scale factor at its initial value (that is the documented scaling).
* **C07 Symmetrisation modes have their documented meaning** (proved) - Modelled: TensorWriter declarations and write() as a state machine over an arbitrary number type (`Writer_Model`), reader channel ranges; histories are arbitrary lists of declarations. Proof: `view_point` (tensor entry = meaning of the history), then real arithmetic.
  Theorems: `C07_average`, `C07_conservative`, `C07_linear`, `C07_quadratic`, `C07_asymmetric`, `C07_rebooking_refuted`.
  For the last booking of a nuisance on (channel, process), read back from the written tensors. Re-booking an asymmetric nuisance symmetrically leaves the old half-difference (refuted).
* **C08 Asymmetric interpolation is a smooth, odd, saturating switch** (proved) - Modelled: `_init_logk_scaled` and `_compute_yields_noBBB` for dense and sparse input (`Yields_Model`), fed with the workspace written by the writer model. Proof: clamped polynomial with matching values and derivatives at +-1/2.
  Theorems: `C08_smooth_switch`, `C08_saturated_slope`.
  First and second derivative exhibited, second derivative continuous.
* **C09 Sparse and dense workspaces are equivalent** (partial) - Modelled: `_init_logk_scaled` and `_compute_yields_noBBB` for dense and sparse input (`Yields_Model`), fed with the workspace written by the writer model. Proof: both equal the documented prediction.
  Theorems: `C09_same_yields`, `C09_both_available`, `C09_per_bin_masked_refuted`.
  The same script written dense and sparse gives the same yields for every parameter point and scale factor whenever both computations succeed; both succeed for bin-independent factors and dense templates. Refuted: per-bin factors of the fit region together with masked channels work dense but fail sparse.
* **C10 Sparse tensors are canonical and self-consistent** (proved) - Modelled: TensorWriter declarations and write() as a state machine over an arbitrary number type (`Writer_Model`), reader channel ranges; histories are arbitrary lists of declarations. Proof: argsort is a permutation, ravel keys are injective, inverse permutation composes (`Writer_Arr`, `Writer_Tensor`).
  Theorems: `C10_canonical`, `C10_own_entry`.
  For histories with stable channel flags and constraint flags.
* **C11 Log-variations are finite and confined to populated bins** (partial) - Modelled: TensorWriter declarations and write() as a state machine over an arbitrary number type (`Writer_Model`), reader channel ranges; histories are arbitrary lists of declarations. Proof: as C07.
  Theorems: `C11_unpopulated`, `C11_log_normal_value`, `C11_normal_value`, `C11_difference_value`, `C11_systematic_atomic`, `C11_nonfinite_systematic`, `C11_nonfinite_process`, `C11_rejected_process_refuted`, `C11_norm_systematic_atomic_refuted`, `C11_stored_zero_refuted`.
  Values and confinement proved; non-finite templates are rejected; a rejected add_systematic changes nothing. Refuted: a rejected add_process stays registered on the process axis, a failing add_norm_systematic keeps earlier processes, explicitly stored zeros of a sparse nominal carry a variation.
* **C12 Normalisation systematics act on every listed process** (partial) - Modelled: TensorWriter declarations and write() as a state machine over an arbitrary number type (`Writer_Model`), reader channel ranges; histories are arbitrary lists of declarations. Proof: as C07.
  Theorems: `C12_scalar`, `C12_pair`, `C12_pair_conservative`, `C12_one_for_all_refuted`, `C12_pair_modes_refuted`.
  One value or pair per listed process proved (average and conservative). Refuted: one uncertainty for several processes reaches only the first (zip), and up/down pairs with none/linear/quadratic symmetrisation raise TypeError.
* **C13 Multi-dimensional systematic booking equals one call per slice** (partial) - Multi_*.v (tensorwriter.py:574-1262). A histogram with axes is read by axis name (`named_at`, `position`, `slice_of`); `single_call` is the ordinary booking of one slice; `expands` the list of calls a call with extra axes stands for. C13_loop compares the code with that list including exceptions, C13_written the written file after any history, for any (unstable) np.argsort. The invariants of the writer (Writer_Master.v) were generalised to states reached by the batched path, whose sparse entries are unsorted. FINDINGS: the loop keeps the histogram's axis order and compares edges only, so swapped axes of equal binning are booked transposed, while the batched path goes by name (C13_axis_order_refuted); labels with underscores make different bins share a name and the later replaces the earlier (C13_collision_refuted); syst_axes that leave an extra axis over make the batched path keep an arbitrary one of the entries (C13_left_over_axis_refuted); the batched path checks neither edges nor sizes (C13_batched_edges_refuted, C13_batched_size_refuted); single bookings of empty sparse slices raise IndexError in _sparse_values_at while the batched path books them (C13_empty_slice_refuted).
  Theorems: `C13_written`, `C13_loop`, `C13_no_extra`, `C13_extra_axes`, `C13_bad_axes`, `C13_edges`, `C13_names`, `C13_axis_order_refuted`, `C13_collision_refuted`, `C13_left_over_axis_refuted`, `C13_batched_edges_refuted`, `C13_batched_size_refuted`, `C13_empty_slice_refuted`.
  For every history, geometry, content, mode and path the written file is that of the single bookings of the slices, provided the histogram has exactly the channel's axes and the extra axes (any order for the batched path, the channel's order for the loop). Outside these conditions the two paths and the single calls differ (refutations).
* **C14 Pseudodata selection returns the named dataset** (partial) - Pseudo_*.v (inputdata.py:29-72, rabbit_fit.py:915-957, tensorwriter.py:170-193, 1656-1680). Spec: `stored_as`, `pseudo_log`. FINDING: pseudodata_var is not reduced to the selected columns, so the selected sets are paired with the variances of the first sets of the file (C14_variances_refuted). TensorWriter itself writes no hpseudodatavar. The sets are fitted in the order of the file, not of the request.
  Theorems: `C14_selection`, `C14_each`, `C14_unknown`, `C14_all`, `C14_written`, `C14_variances_partial`, `C14_variances_refuted`.
  Values and names for every file and request, also from the calls of add_pseudodata to the fitted data set; refuted for the variances of files that have them.
* **C15 Parameter pattern matching selects exactly the matching parameters** (proved) - Modelled: `match_regexp_params`, freeze/defreeze/update_frozen_params as a state machine over arbitrary histories (`Freeze_Model`); the regex engine is an arbitrary function. Spec: `selects` (equal to an expression or fully matched by one).
  Theorems: `C15_selection`, `C15_expression_order_irrelevant`, `C15_exact_name_refuted`.
  Valid expression lists only: an exact name that is not a valid regex raises (refuted in that corner).
* **C16 Freezing algebra** (proved) - Modelled: `match_regexp_params`, freeze/defreeze/update_frozen_params as a state machine over arbitrary histories (`Freeze_Model`); the regex engine is an arbitrary function. Spec: `is_frozen`, a recursive reading of the history.
  Theorems: `C16_freeze_history`, `C16_mask_length`, `C16_idempotent`, `C16_partition`.
  All histories, including calls that raise.
* **C17 Scans leave the fitter as they found it** (partial) - Modelled: `nll_scan` and `nll_scan2D` with an arbitrary minimiser and likelihood, unfilled numpy entries kept as `Unset`, the while loop with fuel (`Scan_Model`). Proof: the defreeze after the freeze is a filter of the frozen list.
  Theorems: `C17_scan_restores`, `C17_scan2D_restores`, `C17_user_frozen_refuted`.
  Restored exactly when none of the parameters selected by the scanned names was frozen before; refuted otherwise: scanning a user-frozen parameter releases it.
* **C18 1D scan grid** (proved) - Modelled: `nll_scan` and `nll_scan2D` with an arbitrary minimiser and likelihood, unfilled numpy entries kept as `Unset`, the while loop with fuel (`Scan_Model`). Proof: loop invariants of the two sides.
  Theorems: `C18_grid`, `C18_points_profile_the_parameter`.
  For two or more points, positive range and uncertainty.
* **C19 2D spiral scan visits every grid cell exactly once** (partial) - Modelled: `nll_scan` and `nll_scan2D` with an arbitrary minimiser and likelihood, unfilled numpy entries kept as `Unset`, the while loop with fuel (`Scan_Model`). Proof: closed form of the spiral by rings (`Scan_Spiral`).
  Theorems: `C19_spiral`, `C19_every_cell`, `C19_even_unfilled`, `C19_even_refuted`, `C19_prefit_centre_refuted`.
  Termination, in-grid, no revisit and neighbour steps for every size; every cell filled for odd sizes. Refuted for even sizes (last row and column stay uninitialised); with use_prefit the centre of the grid is 0 instead of the current value.
* **C20 A frozen parameter has zero gradient** (partial) - Modelled: effective parameters with stop_gradient (two copies of the vector), BBB profile and application per bin, all likelihood terms (`Nll_Model`). Spec: `search` (span of gradients and Hessian-vector products), `fit_path`. Proof: the loss depends on the tracked copy only through floating entries.
  Theorems: `C20_loss_ignores_frozen`, `C20_gradient_and_hessian`, `C20_fit_cannot_move`, `C20_external_refuted`.
  Proved for every frozen parameter that no external term uses: loss unchanged, gradient entry and Hessian row and column zero, no path of gradient/HVP steps moves it. Refuted otherwise: external terms read the raw parameters and do move a frozen one.
* **C21 Blinding is a pure reparametrisation** (partial) - Modelled: effective parameters with stop_gradient (two copies of the vector), BBB profile and application per bin, all likelihood terms (`Nll_Model`). Modelled: `init_fit_parms`, `init_blinding_values`, `set_param_default` (`Init_Model`); the seeded generator is an arbitrary function. Spec: `shifted`, `offset_value` (first matching group or own name).
  Theorems: `C21_reparametrisation`, `C21_off_is_plain`, `C21_offsets`, `C21_group_shares_offset`, `C21_ambiguous_is_error`, `C21_accepted`, `C21_external_refuted`.
  All points, offsets, unblind and group lists without external terms; refuted with an external term (it is evaluated at the stored, unshifted parameters).
* **C22 No blinding offset survives a reset** (proved) - Modelled: the double loop of rabbit_fit.py, `defaultassign`, `set_nobs`, `toyassign` and helpers, blinding offsets, and any list of operations a fit may do (`Session_Model`); random draws are functions of the distribution's parameters. 
  Theorems: `C22_offsets`, `C22_session`.
  From any state at all, so after any history; prefit and toy generation see neutral offsets.
* **C23 Signal-strength encoding round-trips** (proved) - Modelled: `init_fit_parms`, `init_blinding_values`, `set_param_default` (`Init_Model`); the seeded generator is an arbitrary function. Proof: scatter update by name, sqrt of a square.
  Theorems: `C23_roundtrip`, `C23_nonnegative`, `C23_unknown_signal`.
  Distinct parameter names and distinct names in the request.
* **C24 Gaussian priors and constraints form one aligned penalty** (proved) - Modelled: `init_fit_parms`, `init_blinding_values`, `set_param_default` (`Init_Model`); the seeded generator is an arbitrary function. Spec: `prior_pen`, `declared_min`; stated by parameter and nuisance name.
  Theorems: `C24_penalty`, `C24_full_minus_reduced`, `C24_sqrt_poi_prior_rejected`, `C24_accepted`.
  Non-finite, zero and negative widths included.
* **C25 Reduced Poisson likelihood is a deviance** (proved) - Modelled: effective parameters with stop_gradient (two copies of the vector), BBB profile and application per bin, all likelihood terms (`Nll_Model`). Proof: ln t <= t-1 with equality only at 1.
  Theorems: `C25_deviance`, `C25_empty_bin`, `C25_full_minus_reduced`.
  lgamma is an arbitrary function.
* **C26 Bin-by-bin profiling returns the minimiser (lite mode)** (proved) - Modelled: bbstat.py construction of kstat/betamask, default selection of the type, all six closed forms, application to the yields and the constraint term, per bin over the reals (`BBStat_*`). Proof: stationarity plus tangent inequalities of ln and squares gives the global minimum.
  Theorems: `C26_lite_profile_minimises`, `C26_lite_loss_is_objective`, `C26_lite_masked_keeps_default`, `C26_lite_additive_default`.
  Proved for all bins with positive expectation of the processes with MC uncertainty; the complementary case is C29.
* **C27 Bin-by-bin profiling returns the minimiser (full mode)** (partial) - Modelled: per (bin, process) closed forms of bbstat.py, division by zero as None (`BBStatFull_Proof`). Proof: tangent inequalities, Lagrange-type candidate b0 + g n/k.
  Theorems: `C27_full_profile_minimises`, `C27_full_loss_is_objective`, `C27_chisq_defined`, `C27_poisson_mult_defined`, `C27_empty_bin_nan_refuted`.
  Normal multiplicative and additive closed forms proved. Gamma in full mode, solved numerically in the code, is C88. Refuted in one corner: nobs = 0 with MC weights larger than one gives 0/0.
* **C28 Bin-by-bin profiling for covariance fits solves the normal equations** (partial) - Modelled: linear systems built for covarianceFit with an arbitrary symmetric psd inverse covariance; tf.linalg.solve is any solution (`BBCov_*`). Proof: stationarity implies minimum for psd quadratic forms.
  Theorems: `C28_cov_lite_additive`, `C28_cov_full_additive`, `C28_cov_full_multiplicative`, `C28_cov_lite_multiplicative_partial`, `C28_cov_lite_multiplicative_refuted`.
  Three of four modes proved; lite multiplicative proved without masked bins and refuted with a masked bin (the masked bin is left free in the linear system and reset afterwards).
* **C29 Profiling is used safely when a bin has no active expectation** (partial) - Same model as C26.
  Theorems: `C29_lower_envelope_partial`, `C29_zero_active_refuted`.
  Refuted when no MC-uncertain process contributes (n_active replaced by 1 in the profile although the expectation does not depend on beta); holds for positive active expectation.
* **C30 Bin-by-bin constraint term is a nonnegative penalty** (partial) - Modelled: bbstat.py constraint terms, reduced and constant-including forms with an arbitrary log-gamma function.
  Theorems: `C30_penalty_nonneg`, `C30_full_minus_reduced_constant`, `C30_additive_masked_refuted`.
  All clauses proved except that the additive type does not mask the constraint of bins without MC statistics (refuted).
* **C31 A failed minimisation leaves the last accepted iterate** (partial) - Modelled: `FitterCallback`, `Fitter.fit` around an arbitrary minimiser strategy (trial evaluations, accepted iterations, return, exception, interrupt), `load_fitresult` with np.intersect1d and scatter updates (`Fit_Model`). Spec: `exec`, a big-step relation of runs.
  Theorems: `C31_failed_fit`, `C31_returned`, `C31_every_run`, `C31_interrupt_refuted`.
  Every strategy and every exception that the code catches. Refuted for a KeyboardInterrupt, which is not caught and leaves the trial point.
* **C32 Early stopping triggers exactly on lack of improvement** (partial) - Modelled: `FitterCallback`, `Fitter.fit` around an arbitrary minimiser strategy (trial evaluations, accepted iterations, return, exception, interrupt), `load_fitresult` with np.intersect1d and scatter updates (`Fit_Model`). Spec: `no_gain`, `stops`.
  Theorems: `C32_callback`, `C32_first_comparison_refuted`.
  Exact rule for every sequence of losses. Refuted at the first possible comparison: the check starts one iteration late (len(hist) > k).
* **C33 Loading an external fit result updates exactly the shared parameters** (partial) - Modelled: `FitterCallback`, `Fitter.fit` around an arbitrary minimiser strategy (trial evaluations, accepted iterations, return, exception, interrupt), `load_fitresult` with np.intersect1d and scatter updates (`Fit_Model`). Spec: `shared` by name. Proof: sorted intersection gives matching index pairs.
  Theorems: `C33_load`, `C33_duplicate_refuted`, `C33_no_bbb_refuted`.
  All pairs of duplicate-free lists, with and without covariance. Refuted for duplicated names (entries are overwritten) and for profile with disabled bin-by-bin statistics (exception after the values were set).
* **C34 Every fit of a session starts from the same state** (partial) - Modelled: the double loop of rabbit_fit.py, `defaultassign`, `set_nobs`, `toyassign` and helpers, blinding offsets, and any list of operations a fit may do (`Session_Model`); random draws are functions of the distribution's parameters. Spec: `same_state`, `harmless`. Proof: invariant of the fields that no assignment resets.
  Theorems: `C34_start`, `C34_tau_refuted`, `C34_scan_refuted`, `C34_negative_refuted`.
  After any session whose operations do not tune tau and do not scan a user-frozen parameter. Refuted otherwise: the L-curve optimisation leaves tau changed, a scan releases a user-frozen parameter, and a fit number below -1 keeps the previous data.
* **C35 A purely quadratic likelihood is minimised in one step** (partial) - Modelled: dense linear algebra (`Mat_Model`: Cholesky with failing pivot, triangular solves, LAPACK trtri), `Fitter.minimize`, scipy's conjugate gradient, `edmval_cov` with both back ends, `edmval_cov_rows_hessfree` (`Linear_Model`), exact reals. Spec: `qfun`, `unique_min`, `partial`. Proof: Taylor expansion; Cholesky succeeds iff positive definite; conjugate directions and Bessel's inequality for termination; closure of affine and quadratic functions over the modelled likelihood.
  Theorems: `C35_linear_problems_are_quadratic`, `C35_curvature_penalty`, `C35_derivatives`, `C35_one_step_reaches_the_minimum`, `C35_otherwise_rejected`, `C35_hessian_free_step`, `C35_frozen_parameter_always_raises`, `C35_frozen_refuted`, `C35_lite_additive_refuted`, `C35_normalised_penalty_refuted`.
  Unique global minimum from every start for every positive definite quadratic; ValueError otherwise; conjugate gradients converge for every problem, move no frozen coordinate. The fitter's linearity test implies a quadratic likelihood where every lite additive bin has a positive active yield and every penalty is a sum of squares of affine functions, as the curvature of a channel or projection is. Refuted with frozen parameters (the Cholesky path always raises), for lite additive bins that turn negative (the step can increase the likelihood) and for the curvature of normalised yields, which the test accepts.
* **C36 Covariance with frozen parameters** (proved) - Modelled: dense linear algebra (`Mat_Model`: Cholesky with failing pivot, triangular solves, LAPACK trtri), `Fitter.minimize`, scipy's conjugate gradient, `edmval_cov` with both back ends, `edmval_cov_rows_hessfree` (`Linear_Model`), exact reals. Spec: sums over the floating index list. Proof: L L^T = A, uniqueness of the inverse.
  Theorems: `C36_floating_covariance`, `C36_frozen_do_not_leak`, `C36_nothing_frozen`, `C36_hessian_free_rows`.
  Both back ends; entries with a frozen index keep the previous covariance; ValueError iff the floating block is not positive definite; Hessian-free rows up to the tolerance, ValueError if a requested row is frozen.
* **C37 Traditional impacts** (partial) - Modelled: traditional and global impacts with Cholesky solves, Gaussian data/bin-by-bin covariance (`Impacts_Model`), exact reals. Spec: `is_impact`, `group_impact` as the variance removed by the best linear combination of the group (`conditional_variance`). Proof: elimination solves the normal equations.
  Theorems: `C37_traditional_impacts`, `C37_group_unique`, `C37_group_below_total`, `C37_group_of_one`, `C37_larger_group_larger_impact`, `C37_stat_below_total`, `C37_larger_curvature_smaller_share`, `C37_frozen_unconstrained_member_refuted`.
  Complete for groups whose covariance block is positive definite. Refuted for a group with a frozen unconstrained member: its zero variance makes the solve fail.
* **C38 Global impacts add up to the total variance** (partial) - Modelled: traditional and global impacts with Cholesky solves, Gaussian data/bin-by-bin covariance (`Impacts_Model`), exact reals. Spec: `adds_up` over the curvature of constraints, bin-by-bin terms and data. Proof: C = C H C split into the parts of H.
  Theorems: `C38_parameters_add_up`, `C38_observables_add_up`, `C38_gaussian_add_up`, `C38_linear_predictions_convex`, `C38_negative_data_curvature_refuted`.
  Parameters, derived observables and the Gaussian variant; needs a positive semidefinite data curvature, proved for predictions linear in the parameters. Refuted without it: with a negative data curvature at a proper minimum the statistical column is NaN.
* **C39 Impact envelopes bracket zero** (partial) - Modelled: reals with infinities and NaN, envelopes, quadrature differences, freeze-group scans with regex freezing, non-profiled and global asymmetric refits around an arbitrary fit function (`Envelope_Model`). Spec: `envelope_spec`, `difference_spec`.
  Theorems: `C39_envelope`, `C39_removal`, `C39_quadrature_difference`, `C39_failed_refit_refuted`, `C39_failed_scan_refuted`.
  Sign, removal and NaN propagation of the combination hold for all inputs. Refuted: failed refits and scans are entered as zero shifts before the combination.
* **C40 Grouped asymmetric impacts restore the frozen set** (partial) - Modelled: the double loop of rabbit_fit.py, `defaultassign`, `set_nobs`, `toyassign` and helpers, blinding offsets, and any list of operations a fit may do (`Session_Model`); random draws are functions of the distribution's parameters. `grouped_asym` with arbitrary scans. Spec: `disjoint_group`.
  Theorems: `C40_restored`, `C40_literal`, `C40_frozen_during`, `C40_metacharacter_refuted`.
  Any scan outcome including exceptions. Refuted for a member whose name is an expression that matches a user-frozen parameter.
* **C41 Non-profiled impacts attribute each frozen nuisance to its own group** (partial) - Modelled: reals with infinities and NaN, envelopes, quadrature differences, freeze-group scans with regex freezing, non-profiled and global asymmetric refits around an arbitrary fit function (`Envelope_Model`). Spec: `groups_spec`.
  Theorems: `C41_groups_without_model_parameters_partial`, `C41_groups_shifted`, `C41_groups_refuted`.
  Proved without model parameters. Refuted for every positive number of model parameters: group indices are compared with parameter indices without the offset.
* **C42 Composite parameter models are products of their parts** (proved) - Modelled: all classes of param_model.py (composite, ones, signal strengths, mixture, saturated, bin normalisations, exponential, Bernstein) and the four ABCD files with their isolation/transverse-mass wrappers, flat index arithmetic over mixed-radix shapes (`Shape`, `Param_Model`), exact reals. Spec: `table` (one row per parameter), `built`, `joined`, `product_of`. Proof: mutual induction over the nesting, both layouts are stable partitions of the same rows.
  Theorems: `C42_parameter_table`, `C42_scale_is_product`, `C42_product_by_name`, `C42_groups`, `C42_linear`, `C42_accepts`.
  Any nesting of composites. Also: groups are merged, the linearity flag implies an affine scale factor, and a composite exists for every non-empty list with one sign convention.
* **C43 Mixture model conserves the total and uses the named pair** (partial) - Modelled: all classes of param_model.py (composite, ones, signal strengths, mixture, saturated, bin normalisations, exponential, Bernstein) and the four ABCD files with their isolation/transverse-mass wrappers, flat index arithmetic over mixed-radix shapes (`Shape`, `Param_Model`), exact reals. Spec: `mixes`. Proof: positions of a sorted selection, disjoint scatter updates.
  Theorems: `C43_mixture_partial`, `C43_mixture_sorted`, `C43_named_pair_refuted`, `C43_same_process_refuted`.
  Proved for lists in the order of the process axis; for any order the pairs are formed after sorting both lists by the axis, so the named pair is refuted: c_b_mixing scales a and b. Refuted for a process mixed with itself.
* **C44 Per-bin axis models scale the bin their label names** (partial) - Modelled: all classes of param_model.py (composite, ones, signal strengths, mixture, saturated, bin normalisations, exponential, Bernstein) and the four ABCD files with their isolation/transverse-mass wrappers, flat index arithmetic over mixed-radix shapes (`Shape`, `Param_Model`), exact reals. Spec: `scales`, `label`, `coord`: the value of a bin by its name. Proof: row-major index of a subsequence of axes under reshape and broadcast (`Param_Axis`).
  Theorems: `C44_axis_norm_partial`, `C44_axis_exp_partial`, `C44_axis_bernstein_partial`, `C44_saturated_partial`, `C44_axis_order_refuted`, `C44_saturated_axis_order_refuted`, `C44_saturated_channel_order_refuted`, `C44_saturated_no_axes_refuted`.
  Proved for axes requested in the order of the channel, any channel shape, all processes, masked channels. Refuted for another order: values are reshaped in the channel's order, so labels and bins disagree; for the saturated model also with the channels in another order, and a projection without axes raises TypeError.
* **C45 ABCD predictions satisfy the ABCD relation** (partial) - Modelled: all classes of param_model.py (composite, ones, signal strengths, mixture, saturated, bin normalisations, exponential, Bernstein) and the four ABCD files with their isolation/transverse-mass wrappers, flat index arithmetic over mixed-radix shapes (`Shape`, `Param_Model`), exact reals. Spec: `in_region`, `scaled_in`, `abcd_relation`, `ext_relation`, `chebyshev`. Proof: `global_indices_spec` (bins of a region in row-major order of its free axes), scatter updates of disjoint index lists.
  Theorems: `C45_abcd_partial`, `C45_extended_partial`, `C45_smooth_partial`, `C45_smooth_extended_partial`, `C45_chebyshev`, `C45_isomt_partial`, `C45_isomt_extended_partial`, `C45_isomt_smooth_partial`, `C45_isomt_smooth_extended_partial`, `C45_default`, `C45_region_names`, `C45_zero_denominator_refuted`, `C45_default_corrected_refuted`, `C45_empty_template_refuted`, `C45_axis_order_refuted`.
  Relation, confinement and values for every parameter point with non-zero denominators, all regions with disjoint bins and equal shapes; without correction nothing is scaled at the defaults. Refuted: zero denominators are replaced by 1e-10 or 1, with the correction the prediction of D at the defaults is A C / B and not the MC, regions with their free axes in another order are accepted and pair different bins.
* **C46 Model parameter names match parameter count** (partial) - Modelled: all classes of param_model.py (composite, ones, signal strengths, mixture, saturated, bin normalisations, exponential, Bernstein) and the four ABCD files with their isolation/transverse-mass wrappers, flat index arithmetic over mixed-radix shapes (`Shape`, `Param_Model`), exact reals. Spec: `sized_model`, NoDup. Proof: decimal numerals are injective and end at a non-digit, so labels can be read back (`Param_Names`).
  Theorems: `C46_mu`, `C46_mixture_partial`, `C46_axis_norm`, `C46_axis_exp`, `C46_axis_bernstein`, `C46_saturated_partial`, `C46_abcd_partial`, `C46_ext_abcd_partial`, `C46_smooth_partial`, `C46_smooth_ext_partial`, `C46_smooth_names_at`, `C46_composite_partial`, `C46_negative_index_refuted`, `C46_repeated_process_refuted`, `C46_two_channels_refuted`, `C46_overlapping_regions_refuted`, `C46_saturated_channels_refuted`, `C46_mixture_refuted`.
  Counts hold for every accepted specification except negative indices in the two plain ABCD models (refuted). Names are distinct within one channel and for processes listed once; refuted for repeated processes, composites over two channels, overlapping regions, and channel or process names that contain each other.
* **C47 Projections conserve the yield** (proved) - Modelled: helpers.Term, mapping.py, project.py, ratio.py, angular_coefficients.py and segment_sum_along_axis over tensors of exact reals with any shape (`Map_Model`). hist slicing is modelled for bounds inside the axis, rebinHist by its edge check. Spec: `collected f shape place j`, the sum over the input cells that a placement sends to output cell j (`Map_Spec`). Proof: each tensor operation collects cells according to a placement and placements compose (`collects_trans`). Spec: `projected`: the coordinates on the kept axes by name.
  Theorems: `C47_collects`, `C47_total`, `C47_two_steps`, `C47_per_process`.
  Any shape, subset and order, also for channels with flow bins and per process.
* **C48 Normalised mapping sums to one** (proved) - Modelled: helpers.Term, mapping.py, project.py, ratio.py, angular_coefficients.py and segment_sum_along_axis over tensors of exact reals with any shape (`Map_Model`). hist slicing is modelled for bounds inside the axis, rebinHist by its edge check. Spec: `collected f shape place j`, the sum over the input cells that a placement sends to output cell j (`Map_Spec`). Proof: each tensor operation collects cells according to a placement and placements compose (`collects_trans`). 
  Theorems: `C48_value`, `C48_one`, `C48_nonneg`, `C48_scale`, `C48_per_process`.
  The normalisation is the total of the channel; per process all columns together sum to one.
* **C49 Select and rebin** (partial) - Modelled: helpers.Term, mapping.py, project.py, ratio.py, angular_coefficients.py and segment_sum_along_axis over tensors of exact reals with any shape (`Map_Model`). hist slicing is modelled for bounds inside the axis, rebinHist by its edge check. Spec: `collected f shape place j`, the sum over the input cells that a placement sends to output cell j (`Map_Spec`). Proof: each tensor operation collects cells according to a placement and placements compose (`collects_trans`). Spec: `goes`: the index of a bin after selection, merging and summing; `positions`: cuts of the new edges among the old ones.
  Theorems: `C49_cells`, `C49_per_process`, `C49_total`, `C49_segments`, `C49_positions`, `C49_step_refuted`, `C49_step_sizes_refuted`, `C49_flow_refuted`, `C49_flow_rebin_refuted`, `C49_close_edges_refuted`.
  Proved for ranges and single indices inside the axis, any rebinning with edges found without ambiguity, sums, in any combination. Refuted: a slice with a step keeps every n-th bin while the axis has merged bins; in channels with flow bins index 0 is the underflow and rebinning raises; edges closer than the isclose tolerance give more values than bins.
* **C50 Composite mappings concatenate independent parts** (partial) - Modelled: helpers.Term, mapping.py, project.py, ratio.py, angular_coefficients.py and segment_sum_along_axis over tensors of exact reals with any shape (`Map_Model`). hist slicing is modelled for bounds inside the axis, rebinHist by its edge check. Spec: `collected f shape place j`, the sum over the input cells that a placement sends to output cell j (`Map_Spec`). Proof: each tensor operation collects cells according to a placement and placements compose (`collects_trans`). Spec: `each_alone`.
  Theorems: `C50_uniform_partial`, `C50_last_partial`, `C50_two_parts_fail`, `C50_order_refuted`, `C50_exception_refuted`.
  Proved when all parts agree on needing processes or the only one that does not is last. Refuted: the loop overwrites the observables with their sum, so later parts see summed processes, and a second such part raises.
* **C51 Specification splitting respects parentheses** (partial) - Parse_*.v: text as lists of characters, the regular expression as its lookahead function, int() with white space, sign and underscores; complex() and np.fromstring are functions passed in. Spec: `height`, `balanced`, `cuts`. Refutation: a:f(b,(c)) is cut between b and (c)).
  Theorems: `C51_join`, `C51_cut_iff`, `C51_outer_commas`, `C51_inner_commas_partial`, `C51_nested_refuted`.
  Joining gives the input for every string; every comma outside parentheses of a balanced string is a cut; no comma inside is one if parentheses are not nested. Refuted for nested parentheses.
* **C52 Regularisation penalty** (partial) - Svd_*.v. The padding-and-convolution of svd.py is modelled cell by cell (kernels of all three dimensions) and proved equal to the Laplacian with reflecting edges of the relative prediction. Summation by parts along each axis shows that the Laplacian vanishes only for constants, for every shape of 1-3 axes. FINDING: empty nominal bins enter as relative prediction 1 whatever the prediction, so a prediction that is twice the nominal one is penalised at the border of every empty bin (svd_penalty_proportional_refuted: nominal (1,0), prediction (2,0), penalty 2); with an empty and an occupied bin only the factor one is free of penalty. Scaling the prediction alone multiplies the penalty by the square of the factor.
  Theorems: `svd_penalty_sum`, `svd_penalty_nonneg`, `svd_penalty_zero`, `svd_penalty_common_scale`, `svd_penalty_quadratic`, `svd_penalty_proportional_partial`, `svd_penalty_proportional_empty`, `svd_divisor_nonzero`, `svd_penalty_empty_bins`, `svd_accepts`, `svd_of_mapping`, `svd_penalty_proportional_refuted`, `svd_penalty_prediction_scale_refuted`.
  Nonnegative, invariant under a common nonzero scaling of nominal and prediction, zero exactly for a flat relative prediction, no zero divisor. A proportional prediction is free of penalty only if no nominal bin is empty (or the factor is one).
* **C53 Result groups have distinct, documented names** (partial) - Modelled: the double loop of rabbit_fit.py, `defaultassign`, `set_nobs`, `toyassign` and helpers, blinding offsets, and any list of operations a fit may do (`Session_Model`); random draws are functions of the distribution's parameters. Spec: `doc_name`.
  Theorems: `C53_names`, `C53_distinct`, `C53_accumulated`, `C53_pseudodata_refuted`, `C53_repeated_refuted`, `C53_label_refuted`.
  Documented, distinct names without pseudodata, with one pseudodata set, and for data fits with any number of sets. Refuted for Asimov or toys with several sets (labels accumulate), for several toy counts and for colliding labels.
* **C54 Observed data is blinded exactly as documented** (proved) - Modelled: the double loop of rabbit_fit.py, `defaultassign`, `set_nobs`, `toyassign` and helpers, blinding offsets, and any list of operations a fit may do (`Session_Model`); random draws are functions of the distribution's parameters. Spec: `uses_data`.
  Theorems: `C54_blinded`, `C54_unblinded_data_blind`, `C54_data_fit`.
  Stated also semantically: a fit that is not blinded starts from a state independent of the data values.
* **C55 Limit vector packing round-trips** (proved) - Limit_Model.v (asymptotic_limits.py, rabbit_limit.py); reals, distribution function and quantiles passed in, results of minimisations arbitrary. `pack` = initial vector, `unpack` = first lines of scipy_constraint and scipy_constraint_grad. The comment that the fitters may have different parameters is refuted (C55_lengths_refuted): the vector is split at (n+1)//2.
  Theorems: `C55_unpack_pack`, `C55_pack_unpack`, `C55_unpack_total`, `C55_lengths_refuted`.
  Both directions for all lengths and indices when the fitters have the same number of parameters (they are copies of each other).
* **C56 Channel histograms of the output cover the prediction** (partial) - Ws_Model.v (workspace.py); a histogram is its tensor of values, the results a tree of dictionaries. Spec: `offset`, `bin_shape`, `ravel`. Channels with flow bins: the entries beyond a category axis (processes) are one (C56_flow_ones), so sums with flow over processes are off by one. FINDING: for a channel with flow bins and a category axis the range counts a.extent while hist() reshapes with len(a), so the fit fails when results are stored (C56_flow_category).
  Theorems: `C56_expected`, `C56_expected_total`, `C56_cover`, `C56_flow_ones`, `C56_observed_channels`, `C56_observed`, `C56_observed_total`, `C56_observed_cov`, `C56_same_ranges`, `C56_flow_category`, `C56_flow_category_refuted`.
  Every bin of every channel, with process, variation and impact axes, for all layouts without category axes in channels with flow bins; refuted for those. Data and their covariance blocks are attributed to the unmasked channels.
* **C57 External likelihood terms act on the named parameters** (partial) - Modelled: `add_external_likelihood_term`, writing (canonical order), reading, name resolution, `compute_external_nll` (`Ext_Model`). Spec: `meaning` by parameter name. Proof: flat sparse entries regrouped by cell, terms by permutation.
  Theorems: `C57_value`, `C57_parameter_order`, `C57_accepted`, `C57_missing_name`, `C57_duplicate_parameter`, `C57_duplicate_term`, `C57_canonical`, `C57_overflow_refuted`.
  Any sequence of terms, dense or sparse, any parameter order. Refuted in one corner: a sparse Hessian on axes with an overflow bin is read with the wrong row length.
* **C58 Datacard conversion preserves the card** (partial) - Card_*.v (datacard_parser.py, datacard_converter.py:122-367, bin/rabbit_text2hdf5.py). `text2hdf5` goes from tokenised lines through the parser to the calls of TensorWriter and the written workspace (Writer_Model). Spec: abstract card `acard`, its layouts `laid_out`, `template`/`varied` (last shapes line that covers the column), `factor`, `entry`, `reaches`; `spaced` for the text of lines, `pattern`/`filled` for names of histograms. Hypotheses: `wf_card` (numbers parse, columns distinct, as many entries as columns) and `tidy` (names of nuisances distinct, also after appending SymAvg/SymDiff). FINDINGS: counting channels use the observation as the yield of every process (C58_rate_refuted); the rate line is otherwise ignored (C58_shape_rate_refuted); systematics below the first param/rateParam/group line are dropped (C58_order_refuted); a rateParam for `*` acts on the first process only (C58_star_refuted); gmN and groups are read and dropped; lnU and shapeU without templates are constrained; lines with a wrong number of entries are dropped silently; a wildcard shapes line overrides a specific one above it; indices above names raise ValueError; systematics named shapes* are read as shapes lines; with the columns above the observations the channels are wrong.
  Theorems: `C58_text`, `C58_parsed`, `C58_names`, `C58_channels`, `C58_processes`, `C58_data`, `C58_template`, `C58_found`, `C58_nuisances`, `C58_no_entry`, `C58_norm`, `C58_norm_pair`, `C58_shape`, `C58_rateparam`, `C58_rate_refuted`, `C58_shape_rate_refuted`, `C58_order_refuted`, `C58_star_refuted`, `C58_gamma_refuted`, `C58_lnU_refuted`, `C58_group_refuted`, `C58_short_line_refuted`, `C58_wildcard_refuted`, `C58_index_first_refuted`, `C58_shapes_name_refuted`, `C58_block_first_refuted`, `C58_short_numbers_refuted`, `C58_truncated_refuted`.
  For every card laid out as header, observations, columns, systematics, directives: channels, data, processes, signals, histograms, nuisances and constraints, exact effect of lnN/lnU/shape*/rateParam entries, zero elsewhere. Refuted: yields from the rate line (the observation is used for counting channels), any order of lines, gmN, unconstrained lnU, groups, rateParam for all processes.
* **C59 Yield prediction is the documented product** (proved) - Modelled: `_init_logk_scaled` and `_compute_yields_noBBB` for dense and sparse input (`Yields_Model`), fed with the workspace written by the writer model. Spec: `Yields_Spec` (closed formula per bin and process).
  Theorems: `C59_prediction`, `C59_default_is_nominal`.
  Both systematic types, dense and sparse.
* **C60 Masked channels never influence the fit** (proved) - Modelled: `_init_logk_scaled` and `_compute_yields_noBBB` for dense and sparse input (`Yields_Model`), fed with the workspace written by the writer model. Modelled: effective parameters with stop_gradient (two copies of the vector), BBB profile and application per bin, all likelihood terms (`Nll_Model`). Proof: `same_prediction` with the unmasked channels as agreement set; masked rows keep beta0 and add nothing.
  Theorems: `C60_masked_yields`, `C60_masked_likelihood`.
  Yields of unmasked bins and the full likelihood (any likelihood type, any bin-by-bin mode, constraints) are the same for two files that differ only in what is declared for masked channels, keeping the declared names; no regularisers or external terms.
* **C61 Regularisation only adds its penalty** (proved) - Modelled: `_init_logk_scaled` and `_compute_yields_noBBB` for dense and sparse input (`Yields_Model`), fed with the workspace written by the writer model. Modelled: effective parameters with stop_gradient (two copies of the vector), BBB profile and application per bin, all likelihood terms (`Nll_Model`). Proof: predictions of the two calls agree on the fit bins (`yields_prediction`), the additional rows keep beta0 and add nothing.
  Theorems: `C61_penalty_only`.
  For every written file without blinding and external terms; the parameter model may compute its scale factors over all bins or over the fit bins as long as the two agree on the fit bins.
* **C62 Bin-by-bin toys fluctuate with the width of their constraint** (partial) - Modelled: the double loop of rabbit_fit.py, `defaultassign`, `set_nobs`, `toyassign` and helpers, blinding offsets, and any list of operations a fit may do (`Session_Model`); random draws are functions of the distribution's parameters. 
  Theorems: `C62_constraint_width`, `C62_additive_width`, `C62_multiplicative_width_refuted`.
  Proved for the additive type. Refuted for the multiplicative type, whose toys fluctuate with the absolute instead of the relative uncertainty.
* **C63 Chi-square fits use the stored data variances** (partial) - Modelled: the double loop of rabbit_fit.py, `defaultassign`, `set_nobs`, `toyassign` and helpers, blinding offsets, and any list of operations a fit may do (`Session_Model`); random draws are functions of the distribution's parameters. 
  Theorems: `C63_toy_variances`, `C63_data_fit_variances`, `C63_data_fit_refuted`.
  Proved for toys. Refuted for the fit to data: set_nobs is called without the variances.
* **C64 Impact histograms are labelled by what they contain** (partial) - Modelled: traditional and global impacts with Cholesky solves, Gaussian data/bin-by-bin covariance (`Impacts_Model`), exact reals. Spec: `trad_means`, `global_means`: meaning of a column by its label.
  Theorems: `C64_row_labels`, `C64_traditional_columns`, `C64_global_columns`, `C64_hessian_free_rows_partial`, `C64_hessian_free_rows_refuted`.
  Rows and columns of traditional and global impacts. Refuted for the Hessian-free rows with unconstrained non-POI model parameters and nuisances of interest: the offset is the number of POIs instead of model parameters.
* **C65 Refit impacts shift one source, restore the fit and agree with the Gaussian ones** (partial) - Modelled: reals with infinities and NaN, envelopes, quadrature differences, freeze-group scans with regex freezing, non-profiled and global asymmetric refits around an arbitrary fit function (`Envelope_Model`). Spec: `nonprofiled_row`, `source_row`, `stationary`.
  Theorems: `C65_nonprofiled_refits`, `C65_nonprofiled_succeeds`, `C65_global_asym`, `C65_gaussian_limit`, `C65_sources`, `C65_group_members`, `C65_labels_partial`, `C65_labels_two_calls_refuted`, `C65_nonprofiled_direction_refuted`.
  State, shifts and groups for every fit function; agreement with C_ki sqrt(cw_i) in the quadratic case. Refuted: the non-profiled entries are nominal minus refit, so same-sided shifts end up on the wrong side of the envelope; labels are in the order of freezing while rows are in parameter order, so two freeze calls can swap them.
* **C66 Freeze-group impacts are what freezing the group removes** (partial) - Modelled: reals with infinities and NaN, envelopes, quadrature differences, freeze-group scans with regex freezing, non-profiled and global asymmetric refits around an arbitrary fit function (`Envelope_Model`). Spec: `freeze_group_column`.
  Theorems: `C66_freeze_groups`, `C66_user_frozen_released_refuted`.
  All scans and groups whose member names match only themselves as expressions. Refuted otherwise: a metacharacter releases a user-frozen parameter for the remaining groups.
* **C67 The saturated test keeps the original parameters and constraint centres** (partial) - Modelled: all classes of param_model.py (composite, ones, signal strengths, mixture, saturated, bin normalisations, exponential, Bernstein) and the four ABCD files with their isolation/transverse-mass wrappers, flat index arithmetic over mixed-radix shapes (`Shape`, `Param_Model`), exact reals. `saturated_setup`, `saturated_centres` (`Param_Setup`).
  Theorems: `C67_saturated_setup`, `C67_negative_pois_raise`, `C67_test_unavailable_refuted`.
  Layout and centres for every model and projection. Refuted availability: the saturated model has non-negative strengths, so a composite with POIs that may be negative raises ValueError.
* **C68 Signal strengths scale exactly the signal processes** (proved) - Modelled: all classes of param_model.py (composite, ones, signal strengths, mixture, saturated, bin normalisations, exponential, Bernstein) and the four ABCD files with their isolation/transverse-mass wrappers, flat index arithmetic over mixed-radix shapes (`Shape`, `Param_Model`), exact reals. 
  Theorems: `C68_signal_strengths`, `C68_signals_not_first_refuted`.
  The signals come first on the process axis (guaranteed by the writer, C04); without that it is refuted.
* **C69 A process selection restricts the result to these processes** (partial) - Modelled: helpers.Term, mapping.py, project.py, ratio.py, angular_coefficients.py and segment_sum_along_axis over tensors of exact reals with any shape (`Map_Model`). hist slicing is modelled for bounds inside the axis, rebinHist by its edge check. Spec: `collected f shape place j`, the sum over the input cells that a placement sends to output cell j (`Map_Spec`). Proof: each tensor operation collects cells according to a placement and placements compose (`collects_trans`). 
  Theorems: `C69_ratio_partial`, `C69_taken`, `C69_select_refuted`, `C72_processes_refuted`.
  Ratio-like mappings honour the lists. Refuted for Select and AngularCoefficients: their inclusive result is computed from observables summed over all processes.
* **C70 Columns of per-process results carry the name of their process** (partial) - Modelled: helpers.Term, mapping.py, project.py, ratio.py, angular_coefficients.py and segment_sum_along_axis over tensors of exact reals with any shape (`Map_Model`). hist slicing is modelled for bounds inside the axis, rebinHist by its edge check. Spec: `collected f shape place j`, the sum over the input cells that a placement sends to output cell j (`Map_Spec`). Proof: each tensor operation collects cells according to a placement and placements compose (`collects_trans`). 
  Theorems: `C70_columns_partial`, `C70_order_refuted`.
  Proved for lists in the order of the process axis; refuted otherwise: values are in axis order, labels in the order of the request.
* **C71 Ratios, asymmetries and differences combine corresponding bins** (proved) - Modelled: helpers.Term, mapping.py, project.py, ratio.py, angular_coefficients.py and segment_sum_along_axis over tensors of exact reals with any shape (`Map_Model`). hist slicing is modelled for bounds inside the axis, rebinHist by its edge check. Spec: `collected f shape place j`, the sum over the input cells that a placement sends to output cell j (`Map_Spec`). Proof: each tensor operation collects cells according to a placement and placements compose (`collects_trans`). Spec: `kind_value`, `wanted`.
  Theorems: `C71_values`, `C71_proportional`, `C71_asymmetry_range`, `C71_difference_refuted`.
  All four kinds. Difference normalises both operands although its description does not say so.
* **C72 Angular coefficients are ratios to the unpolarised cross section** (partial) - Modelled: helpers.Term, mapping.py, project.py, ratio.py, angular_coefficients.py and segment_sum_along_axis over tensors of exact reals with any shape (`Map_Model`). hist slicing is modelled for bounds inside the axis, rebinHist by its edge check. Spec: `collected f shape place j`, the sum over the input cells that a placement sends to output cell j (`Map_Spec`). Proof: each tensor operation collects cells according to a placement and placements compose (`collects_trans`). 
  Theorems: `C72_coefficients_partial`, `C72_plain`, `C72_lam_tung_partial`, `C72_selected_helicity_refuted`, `C72_processes_refuted`.
  Any position of the helicity axis, any selection, rebinning and sum on the other axes. Refuted with a selection on the helicity axis itself: it replaces numerator and denominator.
* **C73 The covariance of mapped data follows from the variances of the data** (proved) - Modelled: helpers.Term, mapping.py, project.py, ratio.py, angular_coefficients.py and segment_sum_along_axis over tensors of exact reals with any shape (`Map_Model`). hist slicing is modelled for bounds inside the axis, rebinHist by its edge check. Spec: `collected f shape place j`, the sum over the input cells that a placement sends to output cell j (`Map_Spec`). Proof: each tensor operation collects cells according to a placement and placements compose (`collects_trans`). Spec: `jacobian_of` (limit of difference quotients).
  Theorems: `C73_projection`, `C73_selection`, `C73_normalized_rows`, `C73_positive`.
  For every function that is a jacobian in the sense of partial derivatives.
* **C74 Axis selections mean what is written** (partial) - Parse_*.v: text as lists of characters, the regular expression as its lookahead function, int() with white space, sign and underscores; complex() and np.fromstring are functions passed in. Spec: `choice`, `show`, `choice_is`. FINDINGS: the second loop of parse_axis_selection tests the k left over from the first loop, so only the last axis gets the default slice(None) through which Term notices unknown names (C74_unknown_axis_refuted); the index -1 becomes slice(-1, 0).
  Theorems: `C74_meaning`, `C74_colon`, `C74_index_partial`, `C74_last_bin_refuted`, `C74_unknown_axis_refuted`.
  Round trip from an abstract list of selections through its text for all names and integers. Refuted: the index -1 selects the empty slice(-1, 0); an unknown axis with sum or rebin is an error only in last position.
* **C75 Different mapping requests have different result keys** (partial) - Parse_*.v: text as lists of characters, the regular expression as its lookahead function, int() with white space, sign and underscores; complex() and np.fromstring are functions passed in. FINDING: Select.parse_args binds the channel to a named argument and joins only the remaining ones, so the same selection on two channels shares one entry of the results.
  Theorems: `C75_key_injective`, `C75_ratio_key`, `C75_angular_key`, `C75_select_key`, `C75_select_key_refuted`.
  Injective for all classes that put all arguments in the key; refuted for Select, whose key lacks the channel.
* **C76 Process lists of mapping arguments are used** (partial) - Parse_*.v: text as lists of characters, the regular expression as its lookahead function, int() with white space, sign and underscores; complex() and np.fromstring are functions passed in. FINDING: AngularCoefficients.parse_args requires len(args) > 2 before it looks at the processes in args[1], so the documented `<ch> <procs>` form silently uses all processes.
  Theorems: `C76_select_procs`, `C76_ratio_procs`, `C76_ratio_selections`, `C76_angular_procs_partial`, `C76_angular_procs_refuted`.
  Select and Ratio for all arguments; AngularCoefficients only if a third argument is present, refuted otherwise.
* **C77 The optimiser of the likelihood limit gets the gradients of its functions** (partial) - Limit_Model.v (asymptotic_limits.py, rabbit_limit.py); reals, distribution function and quantiles passed in, results of minimisations arbitrary. Spec: `is_gradient` by derivable_pt_lim along each coordinate of the packed vector. FINDINGS: _compute_limit_constraint_grad differentiates sqrt(2 nll) instead of sqrt(2 (nll - nllreduced)), so all components are off by q/sqrt(2 nll) (C77_gradient_wrong); objective_jac is -0.001 instead of -1. The function is not called at present (rabbit_limit.py:209).
  Theorems: `C77_gradient_partial`, `C77_true_gradient`, `C77_gradient_wrong`, `C77_gradient_refuted`, `C77_objective_wrong`, `C77_objective_refuted`.
  True for vanishing minima of the likelihoods; refuted otherwise, and the jacobian of the objective is refuted for every vector.
* **C78 Expected Gaussian limits are the observed limits at the quantiles** (partial) - Limit_Model.v (asymptotic_limits.py, rabbit_limit.py); reals, distribution function and quantiles passed in, results of minimisations arbitrary. Limit_Root.v: CLs falls because the relative growth of the distribution function falls, existence by the intermediate value theorem, the normal distribution by the Mills inequality. FINDING: for a negative observation the modified statistic is used with the plain normal distribution, so the observed limit exceeds the band at the same fluctuation (C78_negative, C78_bands_negative_refuted). The expected formula is compared with the equation of compute_gaussian_limit. FINDING: for a squared parameter at zero the propagated error is 0 and every limit is 0 (C78_zero_refuted).
  Theorems: `C78_root`, `C78_bands_partial`, `C78_level`, `C78_positive_error`, `C78_zero_refuted`, `C78_limit`, `C78_normal`, `C78_negative`, `C78_bands_negative_refuted`.
  Every observation (also negative), every pair of errors: exactly one limit, separating the values with CLs above and below the level, for every log-concave distribution function, in particular the normal one. Expected bands are the observed limits for fluctuations that are not negative; refuted for negative ones, where the observed limit is always larger.
* **C79 Limits use the value of the named parameter** (partial) - Limit_Model.v (asymptotic_limits.py, rabbit_limit.py); reals, distribution function and quantiles passed in, results of minimisations arbitrary. Spec: entry of get_x = poi ++ model nuisances ++ theta. FINDING: for npoi <= idx < nparams the index idx - nparams is negative and python reads another systematic from the end of theta (C79_value_refuted).
  Theorems: `C79_value_partial`, `C79_missing`, `C79_value_refuted`.
  Parameters of interest and systematics; refuted for model parameters that are not of interest.
* **C80 The observed limit uses the data set of its fit** (partial) - Limit_Model.v (asymptotic_limits.py, rabbit_limit.py); reals, distribution function and quantiles passed in, results of minimisations arbitrary. Reuses Session_Model. FINDINGS: for toys the unconditional fit is done on data_values, i.e. the real data with the centres of the toy (C80_toy_refuted); set_blinding_offsets is never called, so data fits are unblinded although do_blinding is requested (C80_blinding_refuted).
  Theorems: `C80_dataset_partial`, `C80_asimov`, `C80_toy`, `C80_toy_refuted`, `C80_unblinded`, `C80_blinding_refuted`.
  Data set and prediction right for data and asimov fits; refuted for toys and for blinding.
* **C81 Stored results do not overwrite each other** (partial) - Ws_Model.v (workspace.py); a histogram is its tensor of values, the results a tree of dictionaries. Spec: `last_write`, `get_path`. FINDINGS: chi2, ndf and covariance of `-m Select a` are overwritten by `-m Select b` (C81_select_refuted); nll_scan2D_{p0}_{p1} is the same for (a, b_c) and (a_b, c).
  Theorems: `C81_results_map`, `C81_nothing_lost`, `C81_store`, `C81_names`, `C81_names_good`, `C81_scan_names`, `C81_expected_kept`, `C81_scan_kinds`, `C81_select_refuted`, `C81_scan2D_refuted`.
  The results are a finite map from (mapping, channel, name); everything stored for the expectations of mappings with different keys is kept. Refuted for two Selects and for two-dimensional scans.
* **C82 The postfix is put before the extension of the output file** (partial) - Ws_Model.v (workspace.py); a histogram is its tensor of values, the results a tree of dictionaries. FINDING: get_file_path looks for a dot in the whole of outname and splits the whole path at the last dot, so `-o . --outname v1.0/fit --postfix asimov` writes ./v1_asimov.0/fit.
  Theorems: `C82_extension`, `C82_default_extension`, `C82_total`, `C82_postfix_distinct`, `C82_directory_refuted`.
  For every directory and every name without a directory part; different postfixes always give different files. Refuted for names with a dot in a directory.
* **C83 Data and pseudodata land in the bins of their channels** (partial) - Pseudo_*.v (inputdata.py:29-72, rabbit_fit.py:915-957, tensorwriter.py:170-193, 1656-1680). Spec: `data_log`, `pseudo_log`. FINDING: the default name of add_pseudodata counts the names so far, so each further channel gets a new name and write() raises KeyError for the channels that lack it (C83_default_names_refuted).
  Theorems: `C83_data`, `C83_pseudodata`, `C83_once`, `C83_default_names_refuted`.
  Every history that can be written. Refuted: pseudodata added without a name to two channels cannot be written.
* **C84 Merging input files keeps every channel, process, template and nuisance** (partial) - Merge_*.v (bin/merge_inputs.py, debugdata.py). `merge` reads the workspaces back as histograms and declares them again through Writer_Model. Spec: `acts`, `called`, `names_fit`, `names_apart`, `signals_agree`, `constraints_agree`, `systs_apart`; predictions through Yields_Model. Inputs are workspaces of arbitrary clean scripts (`from_script`). --clipTensors is in C116. External terms, beta variations, data covariances and auxiliary bundles are not read by the script and are lost. FINDINGS: masked channels raise KeyError, because debugdata makes no data histogram for them; a renamed process is stored in a numpy array of fixed-width strings, so that names longer than the longest old one are cut and the following add_systematic raises KeyError; two nuisances of one file renamed alike silently replace each other; a nuisance constrained in one file and free in another appears twice; a nuisance without effect is dropped even if it is a parameter of interest.
  Theorems: `C84_channels`, `C84_processes`, `C84_points`, `C84_data`, `C84_template`, `C84_nuisances`, `C84_no_effect`, `C84_effect`, `C84_as_normal`, `C84_as_lognormal`, `C84_yields`, `C84_accepted`, `C84_mergeable`, `C84_type_refuted`, `C84_masked_refuted`, `C84_sparse_refuted`, `C84_dropped_refuted`, `C84_negative_refuted`, `C84_collision_refuted`, `C84_pseudodata_refuted`, `C84_signal_refuted`, `C84_constraint_refuted`, `C84_name_cut_refuted`, `C84_long_name_refuted`, `C84_channel_refuted`.
  Any list of dense files of scripts, any renaming whose process names are not longer than the old ones: channels, data, templates, nuisances and their metadata, effects and predictions are kept, and the script succeeds. Refuted: masked channels, sparse files, negative yields, nuisances without effect, types of systematics that differ (only the variations by one standard deviation are kept), pseudodata, longer process names.
* **C85 Impacts are read back and printed with the name they belong to** (partial) - Read_*.v (io_tools.py, rabbit_print_impacts.py, rabbit_print_pulls_and_constraints.py, with the storing side in workspace.py and rabbit_fit.py). Histograms are named axes with a value per index; a fit is a list of stored items, each kind once. Spec: `sym_table`, `asym_table`, `at3`, `table`. FINDINGS: with --asymImpacts the total is appended by np.append without axis, which flattens the pairs, so 2n+1 numbers meet n+1 names and max() of a number raises TypeError (C85_asym_fails holds for every fit); for gaussian_global impacts on bins the script reads hist_postfit_inclusive_global_impacts; read_impacts_poi aligns pulls with names only by a mask in the order of the parameters, and not at all if the counts are equal, so frozen parameters given in another order and sources <param>_prior get the pulls of others (C85_frozen_order_refuted, C85_prior_refuted).
  Theorems: `C85_impacts`, `C85_total`, `C85_rows`, `C85_asym`, `C85_print`, `C85_print_one`, `C85_print_unknown`, `C85_print_nonprofiled`, `C85_asym_fails`, `C85_pulls`, `C85_pulls_asym`, `C85_bin`, `C85_bin_key`, `C85_largest`, `C85_asym_refuted`, `C85_sort_refuted`, `C85_gaussian_refuted`, `C85_frozen_order_refuted`, `C85_prior_refuted`.
  Every symmetric table and every nonprofiled one, all sizes and names. Refuted: other asymmetric impacts cannot be printed, sorting is by signed value, Gaussian impacts on observables, pulls of sources that are not in the order of the parameters.
* **C86 Pulls and constraints are printed for every wanted parameter** (partial) - Read_*.v (io_tools.py, rabbit_print_impacts.py, rabbit_print_pulls_and_constraints.py, with the storing side in workspace.py and rabbit_fit.py). Histograms are named axes with a value per index; a fit is a list of stored items, each kind once. Spec: `plines`, `wanted`, `before`, `line`. FINDINGS: rabbit_fit.py stores the contours as contour_scan while io_tools.py reads contour_scans, so --asym always raises KeyError (C86_asym_missing, for every fit); were the name right, the diagonal would be taken by position although the contours may be in another order or of some parameters only (C86_contour_order_refuted, C86_contour_subset_refuted), the printout calls the first of (down, up) the upper one, and the prefit constraints would be the postfit ones (C86_prefit_refuted).
  Theorems: `C86_printed`, `C86_asym_missing`, `C86_contours_refuted`, `C86_contour_order_refuted`, `C86_contour_subset_refuted`, `C86_prefit_refuted`.
  Symmetric uncertainties: all filters, sortings and directions. Asymmetric ones: refuted, they are never found in the file of a fit.
* **C87 The covariance of selected channels is their block** (partial) - Read_*.v (io_tools.py, rabbit_print_impacts.py, rabbit_print_pulls_and_constraints.py, with the storing side in workspace.py and rabbit_fit.py). Histograms are named axes with a value per index; a fit is a list of stored items, each kind once. Spec: `position`. FINDINGS: get_postfit_hist_cov counts the bins without flow, the covariance is stored with flow, so the block of a channel after one with flow bins is that of other bins (C87_flow_refuted); a file with toys only has no default result.
  Theorems: `C87_submatrix`, `C87_order`, `C87_all`, `C87_requested`, `C87_found`, `C87_default`, `C87_missing`, `C87_toys_refuted`, `C87_flow_refuted`, `C87_empty_refuted`.
  All layouts without flow bins; refuted for channels with flow bins.
* **C88 The Newton iteration for gamma constraints per process seeks the joint minimum** (partial) - BBGamma_*.v (bbstat.py:502-566, 700-763, 915-984), per bin over the reals; the derivatives of the tape are arguments, constrained by derivable_pt_lim. Spec: `gamma_objective`, `gamma_admissible`, `valley`, `stationary`, `agree`. Proof: the derivative of the reduced function is (slope(nu(x)) - slope(x)) nu'(x) with nu strictly falling, so its sign is that of x - nu(x); existence by the intermediate value theorem with an explicit left point; the minimum by tangent inequalities. FINDINGS: in a chi-square fit a bin in which no process with uncertainty is expected gets threshold -inf, its derivatives are NaN, and tf.reduce_max over the bins then is NaN, for which edm > 1e-10 is false: the iteration of all bins ends after the first round (C88_loop_undefined). tf.reduce_max propagating NaN is part of the model. The comment 'guaranteeing den > 0 and beta > 0' fails for negative yields (C88_negative_yield_refuted).
  Theorems: `C88_threshold`, `C88_positive`, `C88_value`, `C88_valley`, `C88_minimum`, `C88_no_events`, `C88_step`, `C88_rest`, `C88_loop_rest`, `C88_loop_reach`, `C88_loop_undefined`, `C88_no_threshold_refuted`, `C88_all_bins_converge_refuted`, `C88_negative_yield_refuted`, `C88_fifty_rounds_refuted`.
  The one-dimensional reduction, its single valley, the unique joint minimum and the direction of the steps are proved for all bins with yields >= 0 and one process with uncertainty expected. Missing: a rate of convergence (the last step is a Newton step without bound). Refuted: bins without finite threshold stop all others; negative yields; fifty rounds.
* **C89 Uncertainties of predictions are those of the joint estimate** (partial) - Var_*.v (fitter.py:737-761, 1430-1508, 1591-1629, rabbit_fit.py:486-515) over the reals; derivatives are arguments. Spec: `joint_cov` (the solution of the joint normal equations), `profiled_beta` (response of beta to the parameters), `total_derivative`, `fit_cov`. Observation outside the theorems: rabbit_fit.py never asks for variations with correlations, though rabbit_plot_hists.py:1307 reads them.
  Theorems: `C89_joint`, `C89_unique`, `C89_covariance_matrix`, `C89_same_variances`, `C89_prefit`, `C89_prefit_variations`, `C89_correlated`, `C89_profiled_shift`, `C89_correlated_frozen_refuted`, `C89_uncorrelated_postfit_refuted`.
  Proved for all sizes, curvatures and derivatives; refuted: variations with correlations of a frozen parameter are 0/0, and variations after the fit, which are made one parameter at a time, do not add up to the variance.
* **C90 The goodness of fit is the minimum of the likelihood** (partial) - Gof_*.v (fitter.py:1372-1416, 1839-1932; mapping.py:56-83; rabbit_fit.py:663-667). The identity as mapping, exact arithmetic. Spec: `gfit`, `g_loss` (twice the likelihood), `is_minimum`, `g_fitted`, `g_responses`, `g_covariance`, `penrose`. FINDINGS: with a free parameter, as any signal strength, the covariance of postfit residuals is singular (C90_free_parameter, for every such model): in exact arithmetic solve raises, in floating point the result depends on rounding; the code uses the pseudo inverse only if asked (C90_pseudo_inverse gives its value for residuals in the range). With --noPostfitProfileBB the fitted prediction and the data are treated as independent and the chi-square is too small (C90_unprofiled_postfit_refuted). A bin without events and without uncertainties has variance zero. ndfsat counts frozen parameters and parameters with priors as free.
  Theorems: `C90_prefit`, `C90_postfit`, `C90_free_parameter`, `C90_pseudo_inverse`, `C90_normalised`, `C90_normalised_residuals`, `C90_ndfsat`, `C90_signal_strength_refuted`, `C90_unprofiled_postfit_refuted`, `C90_empty_bin_refuted`, `C90_ndfsat_frozen_refuted`, `C90_ndfsat_prior_refuted`.
  Proved for linear Gaussian models of every size if every floating parameter has a constraint. Refuted otherwise: with one free parameter the covariance of the fitted residuals is singular.
* **C91 Contour scans report the ends of the profile likelihood interval and leave the fit as it was** (partial) - Contour_*.v (fitter.py:2504-2750, rabbit_fit.py:748-768). The minimiser is an arbitrary terminating interaction (`strat`); the caches are part of the state. Spec: `answer` (what each question should be told), `truthful` runs, `side_of`, `farthest`, `profile_at`. The quality of scipy's minimum is not part of the model: C91_profile says what an exact solution means. FINDINGS: without names all parameters are scanned, also frozen ones, whose uncertainty is zero (C91_frozen_parameter_refuted); hess_mode frozen inverts a covariance with zero rows if a parameter is frozen (C91_frozen_mode_refuted, for every such covariance); the interval of an observable is its value at the end (C91_observable_refuted).
  Theorems: `C91_scan`, `C91_frozen_mode`, `C91_determined`, `C91_unknown`, `C91_warm_start`, `C91_frozen_start`, `C91_profile`, `C91_table`, `C91_frozen_mode_refuted`, `C91_frozen_parameter_refuted`, `C91_observable_refuted`.
  Proved for every minimiser, likelihood and mode. Refuted for frozen parameters (mode frozen raises, scanning one starts at NaN) and for observables, whose interval is a value and not a distance.
* **C92 Systematic uncertainties in the covariance of the data act as explicit nuisances** (partial) - DataCov_*.v (tensorwriter.py:179-180, 315-386, 1118-1262, 1583-1635, 1640-1720, 1881-1882, 1995-1999, 2088-2124) over the reals, np.linalg.inv as elimination with pivoting. Spec: `total_shift`, `data_part`, `syst_part`, `inverse_of`, `chi2_explicit`, `wanted_*`. FINDINGS: sumw2 has two axes, for which np.diag takes the diagonal instead of making a matrix: with one process sumw2[0,0] is added to every element of the covariance (C92_bbb_one), with more processes than one and fewer than bins the shapes do not match (C92_bbb_many); the vector of a variation covers masked channels, the covariance does not (C92_masked); in sparse mode the preallocated size counts the variations of the covariance, the filled one does not, and the assertion fails (C92_sparse); `self.data_covariance[...] +=` changes the attribute (and the array of the caller of add_data_covariance), so that writing again adds all variations a second time (C92_again); constrained=False is ignored; one dictionary holds explicit and folded variations of a name, so that each takes both.
  Theorems: `C92_booked_one`, `C92_booked_two`, `C92_booked_split`, `C92_booked_conservative`, `C92_rejected`, `C92_written`, `C92_profile`, `C92_again`, `C92_bbb_one`, `C92_bbb_square`, `C92_bbb_many`, `C92_masked`, `C92_sparse`, `C92_bbb_refuted`, `C92_bbb_many_refuted`, `C92_masked_refuted`, `C92_sparse_refuted`, `C92_again_refuted`, `C92_unconstrained_refuted`, `C92_shared_name_refuted`, `C92_sparse_broadcast_refuted`.
  Proved for dense writers without masked channels and without statistical uncertainties. Refuted with masked channels, in sparse mode, with add_bin_by_bin_stat_to_data_cov, for a second write, an unconstrained variation and a name used in both ways.
* **C93 Template variations tied to the statistical nuisances of another channel** (partial) - BetaVar_*.v (tensorwriter.py:1264-1315, 1930-1991; bbstat.py:838-912) over the reals; the projection of a histogram is a function of the two bins. Spec: `locate`, `fit_channels`, `requested`, `wanted`, `bwriter_ok`. FINDINGS: bbstat.py uses the variations in mode full with multiplicative nuisances only; the mode is lite by default (parsing.py:409) and no warning is given (C93_lite_refuted, C93_additive_refuted). The flow flag of the destination is applied to the axes of the source, too, so that a destination with flow bins and a source without cannot be written (C93_flow_refuted), and a source with flow bins and one bin otherwise gets the same number in all of them (C93_broadcast_refuted). A masked source is accepted by add_beta_variations and fails in write (C93_masked_source_refuted). A channel and its generator-level partner with an axis of the same name cannot be connected, since the projection would need the axis twice (C93_shared_axis_refuted).
  Theorems: `C93_requested`, `C93_written`, `C93_fit_channels`, `C93_sigma`, `C93_sigma_nominal`, `C93_nominal`, `C93_rejected`, `C93_lite_refuted`, `C93_additive_refuted`, `C93_empty_refuted`, `C93_flow_refuted`, `C93_masked_source_refuted`, `C93_broadcast_refuted`, `C93_shared_axis_refuted`.
  Proved for sources without masking and channels without flow bins. Refuted: ignored in mode lite (the default) and with additive nuisances, dropped where the nominal yield is not positive, requests accepted but not writable with a masked source or flow bins in one channel, channels that share an axis.
* **C94 Auxiliary bundles survive the file** (partial) - Bundle_*.v (auxiliary.py, tensorwriter.py:1450-1470, inputdata.py:202-205) on top of Storage_Model. A file is a list of objects with paths; the behaviour of h5py for paths, existing names and strings with zero bytes is part of the model. Spec: `plain`, `clean`, `storable`, `came_back`, `same_dict`. FINDINGS: names with a slash become nested groups and are accepted and written, but read_auxiliary_from_h5 then asks a group for its dtype, so that FitInputData cannot open the file at all (C94_slash_refuted); with a leading slash the bundle is stored elsewhere and lost; an empty list is an array of numbers for numpy; bytes are stored in their printed form; arrays of strings lose their shape; the documented bit-for-bit round trip fails for negative zeros (as in C01).
  Theorems: `C94_roundtrip`, `C94_duplicate`, `C94_none`, `C94_empty_list_refuted`, `C94_bytes_refuted`, `C94_shape_refuted`, `C94_nul_refuted`, `C94_slash_refuted`, `C94_absolute_refuted`, `C94_dot_refuted`, `C94_bits_refuted`.
  Proved for plain names and keys, numeric arrays and non-empty lists of strings without zero bytes. Refuted: empty lists, bytes, shapes of string arrays, zero bytes, names with slashes, the sign of zeros.
* **C95 The curvature used to choose the regularisation strength is the curvature of the L-curve** (partial) - LCurve_*.v (lcurve.py, fitter.py:2077-2120) over the reals. Functions of the parameters carry the gradient and Hessian of autodiff; Spec: `has_gradient` (chain rule along every differentiable path), `smooth`, `minima`, `is_curvature` (derivatives of the standard library; unique, C95_unique). The second derivatives of the code leave out the change of dx/dtau with x; C95_curvature shows that the omitted terms cancel, since the two gradients are parallel at a minimum. C95_autodiff justifies the modelled derivative of cholesky_solve. FINDINGS: the curve is computed with profile=False and the stored beta, which scan and optimisation never update, while the fit profiles beta: the sign of the curvature can be wrong (C95_profiled_refuted); without bin-by-bin statistics lbeta is None and `ln + lc + lbeta` raises (C95_no_bbb); external terms are part of the loss but not of the curve, and the omitted terms no longer cancel (C95_external_refuted); a frozen parameter makes the Hessian singular for the Cholesky decomposition (C95_frozen); data equal to the expectation give log(0) (C95_asimov_refuted). The optimisation differentiates at fixed parameters: with one parameter this derivative is always zero and the start value is returned as the best strength (C95_optimise_refuted); Newton steps also end in a minimum of the curvature (C95_minimum_refuted); the value stored as largest curvature is its negative (C95_sign_refuted). neg_curvature_val_grad_hessp (unused) calls gradient without a target. np.arange(1.7, 2.1, 0.1) has 5 elements in floating point; a scan is over an arbitrary list here.
  Theorems: `C95_curvature`, `C95_unique`, `C95_tradeoff`, `C95_autodiff`, `C95_scan`, `C95_optimise`, `C95_one_parameter`, `C95_no_bbb`, `C95_frozen`, `C95_profiled_refuted`, `C95_asimov_refuted`, `C95_external_refuted`, `C95_optimise_refuted`, `C95_sign_refuted`, `C95_minimum_refuted`.
  Proved without external terms and where the stored nuisances beta are the profiled ones. Refuted: bin-by-bin statistics with profiled nuisances, no bin-by-bin statistics (an exception), external terms, frozen parameters, minima with zero data term, and the optimisation.
* **C96 Input files of every age are read with their meaning** (partial) - OldFile_*.v (inputdata.py:11-219, bbstat.py:107-187 and 838-911, workspace.py:231-316) over the reals; a file is a dictionary of typed arrays. Spec: `cell`, `yield`, `matrix`, `complete`, `owner`, `total`. FINDINGS: (1) the betas of full mode have no process axis when sumw was rebuilt from hkstat; they are aligned with the process axis: an error for general numbers of bins and processes, but with one process every bin is scaled by the sum of the betas (n times the nominal prediction for n bins) and with as many processes as bins the beta of bin p scales process p. (2) ch1_masked is not marked as masked: add_observed_hists slices the data beyond its end and fails to reshape; v["masked"] is a KeyError for every file without metadata. (3) hkstat = 0 becomes sumw2 = sumw, negative for a negative bin.
  Theorems: `C96_fields`, `C96_metadata`, `C96_complete`, `C96_layout`, `C96_old_layout`, `C96_nominal`, `C96_dense_sparse`, `C96_current`, `C96_kstat`, `C96_agree`, `C96_apply`, `C96_observed`, `C96_full_error`, `C96_full_one`, `C96_full_square`, `C96_masked_old`, `C96_key_old`, `C96_cancel_refuted`, `C96_additive_refuted`, `C96_negative_refuted`, `C96_full_refuted`, `C96_masked_refuted`.
  Proved for lite mode and files whose bins all have data. Refuted: full mode with a file that stores hkstat (an error, or every bin multiplied by the sum of all betas), masked bins of files without metadata (the data histograms fail, the flag is a KeyError), negative bins with hkstat = 0, bins whose processes cancel.
* **C97 The report on an input file names exactly what is wrong with it** (partial) - Debug_*.v (rabbit_debug_inputdata.py:25-249, debugdata.py:8-163) over the reals; the report is a record of lists. Spec: `first_bin`, `in_channel`, `varied`, `moves`, `total_yield`, `exactly`. FINDINGS: (1) the number of bins with low data is len(np.where(..)), the number of axes. (2) only down < 1/2 and up > 2 are reported: an anti-correlated nuisance with up = 1/4 and down = 4 is not. (3) sqrt(var)/yield > 1 is never true for negative yields. (4) the shape is made of len(a): one channel with flow shifts the histograms of all later ones. (5) channel names that do not exist select nothing and no warning is given. (6) check 1 cannot report; sparse files are not supported (NotImplementedError is caught, no report).
  Theorems: `C97_dense`, `C97_issues`, `C97_zero_systs`, `C97_still_procs`, `C97_empty_data`, `C97_zero_norm`, `C97_low_yield`, `C97_high_unc`, `C97_low_data`, `C97_extreme`, `C97_no_data`, `C97_option`, `C97_count_refuted`, `C97_extreme_refuted`, `C97_negative_refuted`, `C97_flow_refuted`, `C97_unknown_refuted`.
  Proved for dense files whose channels have no flow. Refuted: the printed number of low data bins (the number of axes), large variations in the other direction, negative predictions, channels with flow, unknown channel names. The first check (channels without data histogram) can never report.
* **C98 The plot of pulls and impacts shows the values of the fit under their names** (partial) - Pulls_*.v (rabbit_plot_pulls_and_impacts.py:239-1420) on the histograms of Read_*.v; a figure is the list of its traces. Spec: `kept`, `grouped_in`, `shown_impact`, `sym_cells`, `pull_cells`, `cell_at`, `cut_at`, `bars`. FINDINGS: (1) grouped asymmetric impacts: np.append flattens the table, so all groups get the two numbers of the first group as bars, and with --normalize they are divided by an entry of another group. (2) ungrouped asymmetric impacts take entries 0 and 1 of the list of constraints for all parameters. (3) the stored pair is (down, up) and is taken as (up, down). (4) --asymImpacts with traditional impacts raises KeyError for files of the fit. (5) df[-num:] after a descending sort shows the smallest ones. (6) the reference boxes of asymmetric plots use the constraints of the fit. (7) the file name of a bin has no channel, so channels with equal axes overwrite each other. (8) `channel not in args.channel` is a test for a part of the string. (9) --pullsNoDiff is not used for bins. (10) --scaleImpacts 0 does not scale. (11) --stat is not divided by the total with --normalize. (12) --sort X_diff or X_both without a reference raises KeyError.
  Theorems: `C98_pulls`, `C98_ungrouped`, `C98_grouped`, `C98_bin`, `C98_bin_grouped`, `C98_merge`, `C98_largest`, `C98_descending`, `C98_sort_difference`, `C98_sort_both`, `C98_sort_missing`, `C98_two_sided`, `C98_one_sided`, `C98_no_impacts`, `C98_pull_traces`, `C98_sort_reference`, `C98_load`, `C98_load_reference`, `C98_nothing`, `C98_with_reference`, `C98_formats`, `C98_files`, `C98_frozen_order_refuted`, `C98_asym_grouped_refuted`, `C98_asym_normalize_refuted`, `C98_asym_constraints_refuted`, `C98_up_down_refuted`, `C98_asym_traditional_refuted`, `C98_descending_refuted`, `C98_asym_box_refuted`, `C98_channel_files_refuted`, `C98_channel_refuted`, `C98_bin_no_diff_refuted`, `C98_scale_zero_refuted`, `C98_stat_refuted`.
  Proved for symmetric impacts and pulls. Refuted for asymmetric ones: grouped bars, their normalisation, the constraints, up and down, the reference boxes, and the traditional ones cannot be plotted ungrouped. Also refuted: --sortDescending with --num, files of several channels, the choice of a channel, --pullsNoDiff on bins, --scaleImpacts 0, --stat with --normalize, the pulls beside asymmetric impacts whose parameters are in another order.
* **C99 Templates given as scipy sparse arrays give the same model as the dense arrays** (partial) - Coo_*.v (tensorwriter.py:93-141, 285-313) on the writer of Writer_*.v and the prediction of Yields_*.v. Spec: `content` (the sum of everything stored at the coordinates), `same_hist`, `same_op`. FINDINGS: (1) arrays with three or more dimensions raise ValueError in sparse mode and work in dense mode. (2) in channels with flow bins the size is compared with the size without flow, so arrays of the right size are refused and arrays of the wrong size pass the check. (3) entries with the same coordinates are not summed: the total of the file and a variation take one entry, negative entries are cut before they are added up, while the prediction adds them. (4) np.searchsorted returns the length of the row for bins after the last entry of a variation, and indexing raises IndexError.
  Theorems: `C99_dense`, `C99_flat`, `C99_same_histogram`, `C99_prediction`, `C99_check`, `C99_one_entry`, `C99_dimension`, `C99_dimension_refuted`, `C99_flow_refuted`, `C99_repeated_total_refuted`, `C99_repeated_variation_refuted`, `C99_repeated_clip_refuted`, `C99_short_variation_refuted`.
  Proved for one and two dimensions, coordinates without repetitions and channels without flow bins. Refuted: three dimensions (dense mode only), flow bins, repeated coordinates (totals, variations, clipping of negative entries), and variations that end before the nominal (an error in sparse mode only).
* **C100 Every result asked for is stored, with uncertainties that belong to it** (partial) - Req_*.v (rabbit_fit.py:335-824, 909-986). A result is its name, the point where it is evaluated and the origin of the covariance it uses; the numbers themselves are modelled elsewhere. Spec: `requested` (what the options ask for), `final_point`, `computes_cov`, `accepted`, `works_without`. FINDINGS: (1) --noEDM without --noHessian: no covariance is computed, so impacts and covariance are silently not written, and the errors, the covariance and the chi2 of the postfit histograms are those of the prefit covariance. (2) --noHessian with --globalImpacts or --gaussianGlobalImpacts is accepted and writes nothing. (3) --noHessian with --scan (unless --scanRangeUsePrefit), --scan2D, --contourScan, --asymImpacts or the warm start of --globalAsymImpacts is accepted, and fails after the minimisation, before anything is stored. (4) --contourScan2D always raises NotImplementedError after the fit, and nothing is stored. (5) --externalPostfit with a covariance and --noFit: the histograms use this covariance, but the variances of the parameters are NaN, and neither the covariance nor impacts are written. (6) --lCurveScan and --lCurveOptimize with --noFit move the parameters away from the loaded ones, while the covariance stays the loaded one.
  Theorems: `C100_stored`, `C100_sources`, `C100_parms`, `C100_prefit_unchanged`, `C100_succeeds`, `C100_succeeds_no_hessian`, `C100_no_edm`, `C100_no_edm_refuted`, `C100_no_hessian_impacts_refuted`, `C100_no_hessian_fails_refuted`, `C100_contour2D_refuted`, `C100_external_refuted`, `C100_lcurve_refuted`.
  Proved whenever the Hessian is computed. Refuted: --noEDM without --noHessian, --noHessian with global impacts (silently missing) or with scans, contour scans, asymmetric impacts and warm starts (an error after the fit), --contourScan2D, and --externalPostfit with --noFit.
* **C101 Plots of histograms show every bin once and label what they show correctly** (partial) - Hplot_*.v (bin/rabbit_plot_hists.py). Spec: `valid` (indices of bins), `meant` (what the k-th name of a variation stands for), `complete`, `usable`, `var_of_sum`; the names of stored histograms come from the model of the fit (Req_*.v). FINDINGS: (1) --diff draws the band at prediction plus and minus uncertainty instead of around the difference: it contains the line only if the uncertainty is as large as the denominator. (2) --normToData scales the prediction but not the variations, so a variation without effect appears as one. (3) --ratioToData with --scaleVariation scales the difference to the data. (4) Fewer names than --varFiles: the upper panel draws a file under the name of a group, the lower one raises IndexError; with --varFilesFitTypes of another length a file is dropped silently and names shift. (5) The uncertainties in the tables of yields ignore the correlations between bins. (6) Without profiled bin-by-bin parameters, no chi2 is shown for the base mapping with 'automatic', although the linear one is stored; for other mappings 'automatic' shows the saturated one if stored, contrary to the help text. (7) Mappings are chosen by prefix: 'Project ch0 pt' plots 'Project ch0 ptll', too. (8) --unfoldedXsec reads hist_global_impacts_grouped_<fit>_inclusive and --correlatedVariations reads hist_<fit>_inclusive_variations_correlated; no fit writes either.
  Theorems: `C101_partition`, `C101_plots`, `C101_totals`, `C101_file_names`, `C101_labels`, `C101_default_labels`, `C101_up_down`, `C101_ratio_band`, `C101_scaled`, `C101_chi2_consistent`, `C101_chi2_prefit`, `C101_chi2_linear`, `C101_chi2_base`, `C101_chi2_mapping`, `C101_chosen`, `C101_keys`, `C101_diff_band_refuted`, `C101_diff_band`, `C101_norm_refuted`, `C101_scaled_refuted`, `C101_labels_refuted`, `C101_types_refuted`, `C101_total_unc_refuted`, `C101_chi2_refuted`, `C101_automatic_refuted`, `C101_chosen_refuted`, `C101_keys_refuted`.
  Proved for slices, for labels when there is a name for every file, for ratios to the prediction, for the chi2 and for the names of stored histograms. Refuted: the band with --diff, --normToData and --ratioToData with variations, fewer names than files, uncertainties of total yields, the automatic chi2, the choice of mappings by prefix and two names of histograms that no fit writes.
* **C102 Plots of likelihood scans show the profile likelihood, the Hessian curves and the contours where they belong** (partial) - Splot_*.v (bin/rabbit_plot_likelihood_scan.py, rabbit_plot_likelihood_scan2D.py). Spec: `profile1`, `profile2` (minimum of the quadratic form over all floating moves with one or two coordinates fixed; from Contour_Spec), `maha` (inverse of a 2x2 covariance), `ordered`. The ellipse is modelled with its eigenvalues and arctan2. FINDINGS: (1) rabbit_plot_likelihood_scan2D.py:200 passes the values of the scan, with rows along x, to pcolormesh and contour, which take rows along y: map and contour lines are mirrored at the diagonal. It is invisible for a Gaussian likelihood scanned in units of the postfit uncertainties, and wrong with --scanRangeUsePrefit or for other likelihoods. (2) The name nll_scan2D_<p>_<q> does not determine the parameters (pdf, 1_pt and pdf_1, pt): the later scan replaces the earlier one and is plotted for both. (3) writeOutput takes what follows a dot in the name of a parameter as an extension: plots overwrite each other. (4) Without --params all parameters of the fit are plotted, which raises KeyError if only some were scanned.
  Theorems: `C102_curve`, `C102_limits`, `C102_no_points`, `C102_parabola`, `C102_hessian`, `C102_ellipse`, `C102_extent`, `C102_scaled`, `C102_levels`, `C102_scales`, `C102_map_gaussian`, `C102_read`, `C102_key2`, `C102_file2`, `C102_map_refuted`, `C102_key2_refuted`, `C102_file2_refuted`, `C102_default_refuted`.
  Proved for curves, parabola, ellipse, levels and scales. The map of a two-dimensional scan is mirrored in general (proved to be harmless for a Gaussian likelihood scanned in units of the uncertainties); names of two-dimensional scans and their files can coincide.
* **C103 Plots of the templates of an input file show each set of axes and each slice once, with all events that belong to a bin** (partial) - Iplot_*.v (bin/rabbit_plot_inputdata.py). Spec: `content` (the sum of a template over all bins of the channel that agree with a bin of the plot on the named axes, with bins as lists of numbers), `subseq`, `local`, `bare`. FINDINGS: (1) main passes the variations Down and Up in this order (lines 596-597, 613-614), make_plot takes them as up and down (lines 187-188): the solid line with the label is the variation Down and the dashed one Up, and with --oneSidedVariations only Down is drawn, with a label that says +. (2) With --processes the prediction is the sum of the chosen processes, the variations are summed over all processes of the file (lines 312-313): a variation without any effect is drawn far from one. (3) The bins of --selectionAxes are enumerated in the order of the histogram and assigned in the order of the option: in another order the script ends with IndexError. (4) A channel all of whose axes are selection axes (a channel in charge alone, with the defaults) ends the script. (5) --normToData with --noData, or for a masked channel, ends the script. (6) With --splitByProcess the legend has the first letter of the process. (7) Names of files with --splitByProcess, or of different channels, can coincide.
  Theorems: `C103_combinations`, `C103_combinations_once`, `C103_axes`, `C103_hists`, `C103_prediction`, `C103_slices`, `C103_runs`, `C103_stack`, `C103_labels`, `C103_lines`, `C103_no_effect`, `C103_split`, `C103_split_complete`, `C103_files`, `C103_direction_refuted`, `C103_processes_refuted`, `C103_order_refuted`, `C103_all_selected_refuted`, `C103_norm_refuted`, `C103_legend_refuted`, `C103_split_files_refuted`, `C103_channel_files_refuted`.
  Proved for the prediction, the data, the stack, the normalisation, the slices and the names of files of a channel. False for the direction of variations (Up and Down are exchanged) and for variations together with --processes; other options end the script or mislabel plots.
* **C104 Plots of covariance matrices show the rows and columns of the bins or parameters that they name** (partial) - Cplot_*.v (bin/rabbit_plot_cov.py). Spec: `shows` (a matrix has one row and column for each of a list of positions), `expected` (positions of all bins, of each channel and of each slice, by filtering the list of all bins), `entry_ok` (correlation as a product, no division). FINDINGS: (1) The covariance of the data (--dataCovariance) is stored per channel. The script takes the one of the first channel and keeps it in h_cov (lines 270-275), so that the plot of every other channel is a part of the matrix of the first one (lines 288-306); with two axes it ends with IndexError. (2) The variable suffix is overwritten in the loop over slices (line 359): files of the channels that follow have the name of the last slice of another channel and not that of the mapping. (3) The names of the slices do not have the mapping: with several mappings only the last ones stay. (4) Without -m no mapping is drawn; the help announces a loop over all of them. (5) Line 196 indexes a list with an array: an unknown parameter gives TypeError and not the message. (6) A channel all of whose axes are selection axes (a channel in charge alone, with the defaults) ends the script. (7) With --prefit the matrix of the parameters is still that of the fit, in a file with prefit in its name.
  Theorems: `C104_plots`, `C104_channel_cov`, `C104_params`, `C104_correlation`, `C104_slice_files`, `C104_second_channel_refuted`, `C104_second_channel_stops`, `C104_suffix_refuted`, `C104_overwritten_refuted`, `C104_default_refuted`, `C104_unknown`, `C104_unknown_refuted`, `C104_all_selected_refuted`, `C104_prefit_params`, `C104_prefit_params_refuted`.
  Proved for the covariance of a mapping (any number of channels and slices), for that of a single channel and for the parameters. False for covariances stored per channel with more than one channel; other refutations are on names of files, defaults and options that end the script.
* **C105 Plots of uncertainties show each source in percent of the prediction of its own bins** (partial) - Uplot_*.v (bin/rabbit_plot_hists_uncertainties.py). Spec: `quoted` (percent as a product, no division), `plot_bins` (the bins of the slice by filtering all bins of the channel; with --invertAxes in the order of the reversed axes), and subsequences. FINDINGS: (1) The total uncertainty is drawn only if a grouping of the configuration names it (line 188); without --grouping it is missing, and --noUncertainty, which should remove it, is not used anywhere. (2) Without -m no mapping is drawn; the help announces a loop over all of them. (3) A channel all of whose axes are selection axes ends the script. (4) From the twenty-first line on colours repeat.
  Theorems: `C105_plots`, `C105_colours`, `C105_total_refuted`, `C105_colours_refuted`, `C105_default_refuted`, `C105_all_selected_refuted`.
  Proved for all plots of a channel with a remaining axis. False for the total without a grouping, for more than twenty lines, for the default of -m and for channels without a remaining axis.
* **C106 A copy of the fitter is a working fitter of its own** (proved) - Clone_*.v (fitter.py:459-502, 2129-2195 and python's copy.deepcopy with its memo). Objects in a heap, attributes, bound methods and compiled functions; copying a compiled function raises. Spec: programs (`exec`, `read`, `run2`) that see a heap only through paths of attributes from one object, with calls leading to the object a function acts on; `visited`/`copyable` (no compiled function among the objects that are copied), `wired` (a table of the functions by option). C106_copyable is an equivalence; C106_made and C106_used show that its hypotheses hold for a fitter that was set up by init_fit_parms and then used, C106_plain_copy_fails that the skipped functions are needed. FINDING: the composite model of the saturated fit is built from the parameter model of the original fitter, not of the copy; nothing in the code changes a parameter model later, but the copy no longer protects it (C106_shared_refuted). Not modelled: classes other than Fitter with a __deepcopy__ of their own (tf.Variable: its value is copied into a new one, as here), python's recursion limit other than as a bound on the number of objects.
  Theorems: `C106_independent`, `C106_untouched`, `C106_copyable`, `C106_functions`, `C106_made`, `C106_used`, `C106_fitter`, `C106_plain_copy_fails`, `C106_shared_refuted`.
  Proved for all object graphs and programs. What the caller puts into the copy afterwards can be shared again (C106_shared_refuted).
* **C107 The options of a fit have the meaning of their help texts, and only meaningful ones start** (partial) - Setup_*.v (fitter.py:107-238, 443-452, 2129-2195, bbstat.py:38-115, 254-262). The constructor as a function of options, input and the linearity flag of the parameter model to a record of what exists and which functions are compiled. Spec: `allowed`, `meant_type`, `meant_jit`, `looks_linear` after the help texts; `describes` links the options with the problems of Nll_Model, so that C107_linear_quadratic continues with C35. FINDING: fitter.py:207-209 calls `self.indata.getattr(...)`, which does not exist: AttributeError (C107_no_covariance, C107_variances_refuted). FINDING: parsing.py:406 documents 'automatic' as gamma, bbstat.py:79-80 uses normal-multiplicative in full mode. Not modelled: warnings, values of the tensors (other areas).
  Theorems: `C107_accepts`, `C107_jit`, `C107_hessp`, `C107_likelihood`, `C107_tensors`, `C107_type`, `C107_linear`, `C107_linear_quadratic`, `C107_no_covariance`, `C107_variances_refuted`, `C107_documented_type_refuted`, `C107_forced_refuted`.
  Proved for all options. Refuted: the covariance fit without a covariance in the file announces the reciprocal variances and always raises; 'automatic' in full mode is not gamma as documented; a forced fit takes one step for any likelihood.
* **C108 The command lines of the parameter models mean what their help texts say, and nothing else is accepted** (partial) - Pcmd_*.v (the parse_args of all parameter models, helpers.py, common.py:24-47). Token lists to constructor calls of Param_Model, so that C42-C46 continue from here. Spec: `body_line`, `region_line`, `option_line`, `start_line`, `iso_line` describe lines from left to right; parsing is proved equivalent to them in both directions. FINDING: smooth_extended_abcd_model.py:286 documents `[params:file] [order:N]`, but an order after a file is taken for the process and the line is rejected (C108_file_and_order_refuted). FINDING: helpers.py:42 passes --expectSignal to every model and each raises for a name it does not know, so with `Mu` and `AxisNormModel` together every starting value raises (C108_start_refuted). FINDING: the help text combines models freely, but `Mu` without --allowNegativeParam and any Axis model disagree on the squaring and raise (C108_combination_refuted). Contents of files and custom classes are parameters.
  Theorems: `C108_unambiguous`, `C108_abcd`, `C108_extended`, `C108_smooth`, `C108_smooth_extended`, `C108_iso`, `C108_iso_smooth`, `C108_iso_smooth_extended`, `C108_mixture`, `C108_axis_models`, `C108_arity`, `C108_unknown`, `C108_several`, `C108_default`, `C108_expect`, `C108_file_and_order_refuted`, `C108_option_order_refuted`, `C108_repeated_axis_refuted`, `C108_start_refuted`, `C108_combination_refuted`.
  Proved for all lines. Refuted: the documented line with a file and an order is rejected; a repeated axis silently drops the first choice; with two models that have parameters of their own no starting value can be given; signal strengths and per-bin normalisations cannot be combined by default.
* **C109 The scan of a contour in two parameters solves the stated problem, and what that problem is** (partial) - Cont2_*.v (fitter.py:2752-2854, workspace.py:396-419, rabbit_fit.py:770-790). As C91, the minimiser is any terminating program of questions. Spec: `farthest2` (largest distance on a line within the level), `profile2_at`, `inverse_width` (radius of the ellipse of the covariance). The code says "Not yet working" and the command raises before it is reached (C109_refused). FINDING: why it cannot work: minimize starts at the best fit, where the objective -(x^2+y^2) has its maximum and zero gradient and both constraints hold, so that every method that ends at an allowed stationary point reports the best fit at every angle (C109_start_is_worst, C109_start_refuted). FINDING: the constraint x sin t - y cos t = 0 is a line, not a ray: entries for t and t + pi are solutions of the same problem (C109_opposite, C109_opposite_refuted).
  Theorems: `C109_scan`, `C109_determined`, `C109_unknown`, `C109_derivatives`, `C109_line`, `C109_profile`, `C109_gaussian`, `C109_axis`, `C109_refused`, `C109_start_is_worst`, `C109_opposite`, `C109_start_refuted`, `C109_opposite_refuted`, `C109_same_parameter_refuted`, `C109_label_refuted`.
  Proved for all likelihoods and minimisers. Refuted: the scan starts at the worst point of its objective, where all gradients vanish; an angle cannot be told from the opposite one; the same parameter twice has a wrong gradient; labels of pairs are ambiguous.
* **C110 Uncertainties without the Hessian are those of the covariance, within the tolerance** (partial) - Cg_*.v (fitter.py:956-1020, rabbit_fit.py:625-660; scipy.sparse.linalg.cg as its loop in exact arithmetic). Spec: `floating_cov` of C91 (inverse Hessian of the floating parameters), `curvature`, `close_below`. Proof: residuals are orthogonal and directions conjugate (induction over the steps), at most n vectors are orthogonal (Bessel), hence the residual vanishes after at most n steps; the solution is orthogonal to its residual, hence the energy of the error is the error of the variance. FINDING: rabbit_fit.py:636 places systematic k at npoi + k, but it is at npoi + npou + k; for models with npou > 0 (the ABCD models) --noHessian stores NaN for the systematics of interest and gives the variances to other parameters (C110_position_refuted). FINDING: rows are also computed for frozen parameters of interest, whose row of the Hessian is zero: scipy divides by zero and the fit ends with "CG solver for cov row 0 did not converge" (C110_frozen_refuted), while the dense path returns the covariance. Rounding is not modelled.
  Theorems: `C110_converges`, `C110_edm`, `C110_variances`, `C110_position_refuted`, `C110_frozen_refuted`, `C110_no_iterations_refuted`.
  Proved over the reals, where the model has no parameters besides those of interest. Refuted: with such parameters the rows of the systematics of interest are taken at wrong positions; a frozen parameter of interest makes the step fail; maxiter=0 returns zero as converged.
* **C111 Asymmetric impacts are computed for the right parameters** (partial) - Asel_*.v (asym_impacts.py:36-58, 127-128, fitter.py:1146-1219, 1262-1304), on the tensors of Yields_Model.v and the expressions of Freeze_Model.v. Spec: `mirrored` on the predicted yields, `passes` on names, `view_logk` for the content of a tensor. C111_files: the hypotheses hold for every file written. Proof: the switch between the slopes is odd, so the sum of the responses to opposite shifts is twice the half-difference times theta times switch(theta), which vanishes only with the half-difference. FINDING: np.array([]) is an array of floats, so `selected &= np.array([...])` raises a TypeError in a fit without nuisances when --asymImpactsInclude, --asymImpactsExclude or their --globalAsymImpacts counterparts are given (C111_no_nuisances_refuted). The mask looks at the tensors of the file, not at the scaled ones of the fitter (C111_scaled_refuted).
  Theorems: `C111_files`, `C111_mask`, `C111_layouts_agree`, `C111_skipped_mirrored`, `C111_marked_not_mirrored`, `C111_selection`, `C111_global_selection`, `C111_columns`, `C111_no_nuisances_refuted`, `C111_scaled_refuted`.
  Proved for every fit with nuisances. Refuted: without nuisances giving include or exclude raises a TypeError; additive variations of a process that is zero at the default parameters are marked although they move nothing.
* **C112 Histograms named in a datacard are found in the ROOT files** (partial) - Rfile_*.v (datacard_converter.py:57-114, 150-189, datacard_parser.py:169-188), with the names of Card_Model.v, where files were a function. Spec: `located` and `flat` as inductive relations on the tree. FINDING: get_directories keeps only directories at each of the max_depth levels, so with patterns of different depth in one card the histograms at the shallower level are lost if their directory also has directories (C112_depth_refuted); for `shape?` systematics this is silent, the effect becomes a normalisation. FINDING: is_TH1 accepts all histograms with ROOT (TH2 derives from TH1) but only class names starting with TH1 with uproot (C112_dimensions_refuted). load_root_directories stores a relative path under its absolute one while get_histogram looks up the relative one (last line of C112_ex_files, a KeyError); the parser makes all paths absolute, so this is not reached (C112_files). Key cycles are left out, and the depth of the systematic patterns does not enter max_depth in the code either.
  Theorems: `C112_uproot`, `C112_root`, `C112_readers_agree`, `C112_depth`, `C112_files`, `C112_depth_refuted`, `C112_dimensions_refuted`, `C112_directory_refuted`.
  Proved for patterns of the maximal depth. Refuted in general: uproot loses histograms beside directories when another pattern is deeper; two-dimensional histograms are read with ROOT only; a name that is a directory is an AttributeError with uproot.
* **C113 The diagnostics of the fit report the distance to the minimum and leave the fit unchanged** (partial) - Diag_*.v (fitter.py:2248-2258, tfhelpers.py:77-95, scipyhelpers.py:51-55, nonprofiled_impacts.py:66-82), with the fit of Fit_Model.v and edmval_cov of Linear_Model.v. Solving is Gaussian elimination with pivoting; Spec: `singular`, `solves`, `dead`, `distance_to_minimum` (minimum of the quadratic approximation). FINDING: a frozen parameter has a zero row and column in the Hessian (C20), np.linalg.solve in the diagnostics raises LinAlgError, Fitter.fit catches every exception and logs it at debug level only, so that a fit with trust-exact or dogleg and --diagnostics silently ends at its start values (C113_frozen, C113_frozen_refuted). FINDING: non-profiled impacts with --diagnostics call the edmval_cov of tfhelpers, which knows nothing about frozen parameters, with the parameter frozen: they always raise (C113_refits_on). FINDING: tf_edmval assigns `edm` and returns `edmval`, the function defined below it (C113_gpu). Not modelled: the condition number, which is only logged.
  Theorems: `C113_solve`, `C113_edm`, `C113_edm_unique`, `C113_edm_final`, `C113_saddle_refuted`, `C113_gpu`, `C113_gpu_refuted`, `C113_harmless`, `C113_frozen`, `C113_frozen_refuted`, `C113_refits_off`, `C113_refits_on`, `C113_refits_refuted`.
  Proved for regular Hessians on the CPU. Refuted: with a frozen parameter the fit ends at its start values and the non-profiled impacts raise; on a GPU the function is logged instead of its value; at a saddle the value is negative.
* **C114 The diagnostic of the bin-by-bin nuisances vanishes where their profile is right** (partial) - Bdiag_*.v (fitter.py:2216-2234, rabbit_fit.py:592-600), with profiles and losses of BBStat_Model.v and edmval_cov of Linear_Model.v. Spec: `inside` (expectation and Gamma nuisance positive), `sane`, derivatives of the standard library. Proof: Fermat at the minimum of C26. FINDING: the comment in rabbit_fit.py says that the value is near zero by construction; an empty bin whose expectation exceeds its effective number of events has its normal nuisance at zero, the best admissible value, with a gradient that is not zero (C114_empty_bin_refuted: 1/4 for one bin). The code logs the pair of value and covariance matrix under the name of the value, since edmval_cov returns both. Full mode: Bfull_*.v, with the closed form of the profile read off its definition; the curvature is block diagonal, positive definite since it is a sum of squares plus the constraints. There the edge of the range is not reached: the profile of a Poisson bin is a number only if its expectation is positive (C114_full_edm), otherwise the logged value is not a number (C114_full_nan_refuted).
  Theorems: `C114_autodiff`, `C114_stationary`, `C114_curved`, `C114_edm`, `C114_filled`, `C114_detects`, `C114_empty_bin_refuted`, `C114_full_autodiff`, `C114_full_stationary`, `C114_full_edm`, `C114_full_unique`, `C114_full_detects`, `C114_full_chisq`, `C114_full_nan_refuted`.
  Lite mode, and full mode with normal nuisances, with Poisson or chi-square likelihood, without regularisation; full mode with Gamma nuisances (a numerical profile) and covariance fits are not covered. Refuted in lite mode for empty bins with normal nuisances at the edge of their range, and in full mode for empty bins whose profile is not a number.
* **C115 The part of the uncertainty of predictions due to bin-by-bin nuisances follows from the curvature of the likelihood** (partial) - Curv_*.v (fitter.py:1343-1370, 1479-1504), with obs_q and gsolve of Impacts_Model.v and the derivatives of Bdiag_Model.v. Spec: `variance_of` (p.z with H z = p), `jacobian_at` (derivatives of the standard library). FINDING: the comment `pd2ldbeta2 is diagonal, so we can use gradient instead of jacobian` is not true in full mode with profiling, where all processes of a bin are coupled through the observed yield. With slopes e, constraint curvatures k and data curvature D the variance of the yield of a bin is S/(1+D S) with S = sum e^2/k, the code gives sum e^2/(k + D e N) with N = sum e, which is never larger (tangent inequality), equal when all ratios e/k of the bin agree and smaller otherwise (C115_full_refuted: 7/12 instead of 3/5). For the yield of one process there is no bound: with two equal processes and precise data their yields are anticorrelated, the correct variance stays above 1/2 while the computed one goes to zero (C115_process_refuted). Not covered: the variations `betavar`, and regularisation, which couple bins as well.
  Theorems: `C115_hessian`, `C115_lite`, `C115_prefit`, `C115_covariance`, `C115_full_exact`, `C115_full_code`, `C115_full_too_small`, `C115_full_agree`, `C115_full_differ`, `C115_full_refuted`, `C115_process_refuted`.
  C115_hessian is for quadratic constraints (normal nuisances); the other theorems take the curvature of the constraint as given and hold for Gamma nuisances with their curvature at the point. The matrix of a covariance fit is taken as given. Refuted for full mode with profiling.
* **C116 Clipping while merging raises templates to the threshold and changes nothing else** (partial) - Clip_*.v (merge_inputs.py:13-18, 117-123, 152-157), the loops of Merge_Model.v with the clipping inserted. Spec: `given`/`not_given` by position in the argument list, `on_op` (templates of a call replaced), logarithms of the standard library. FINDINGS: the threshold for yields is applied to the sums of squared weights as well, so in bins with a yield above the threshold the statistical uncertainty grows when their weights are small (C116_variance_refuted: variance four times larger); a process without events in a channel gets the threshold in every bin of it (C116_absent_process); a threshold for a misspelt file, or one written with another path, is ignored without a message (C116_ignored).
  Theorems: `C116_thresholds`, `C116_arguments`, `C116_errors`, `C116_calls`, `C116_ignored`, `C116_values`, `C116_variations`, `C116_total`, `C116_absent_process`, `C116_variance_refuted`.
  Refuted for bins above the threshold, whose variance is clipped at the same number. That the variances of a histogram with default storage are its values is a property of boost_histogram taken as given.
* **C117 Nuisances act on the yields they belong to, and the yields of single processes exist where they are used** (partial) - Pernorm_*.v (bbstat.py:423-435, 841-911, fitter.py:1796-1813). Missing yields are `None`, using them is a TypeError. Spec: `yield_if` (yield of the processes with or without uncertainty). FINDING: an additive nuisance is distributed in proportion to the yields of the processes with uncertainty, divided by their sum or by one if that is not positive. In a bin where they add up to zero the nuisance has no effect, and with a negative sum the wrong size, while with merged variances the total is shifted by the nuisance (C117_empty_refuted); the profile of the nuisance does not distinguish the cases.
  Theorems: `C117_available`, `C117_needed`, `C117_off`, `C117_full`, `C117_total`, `C117_sum`, `C117_lite`, `C117_profiled_lite`, `C117_profiled_full`, `C117_merged`, `C117_empty_refuted`.
  One bin, values of the nuisances given, without variations of nuisances (betavar). Refuted for additive nuisances in bins whose yield is not positive.
