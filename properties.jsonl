{"id": "C01", "title": "Chunked HDF5 storage is lossless", "statement": "Writing an array with the flat chunked HDF5 helper and reading it back through the tensor loader returns an array of the same shape with the same value in every element, for every chunk-size limit, including when some chunks are skipped because they are entirely zero and including empty arrays. (Bit-level identity, claimed for auxiliary payloads, additionally requires that the sign of a negative zero survives.)", "quantifier": "every array (any shape, any length, any values), every positive element size and every maxChunkBytes", "why_tests_cant": "The interesting cases are the boundaries between chunk size, array length and runs of zeros; a finite set of arrays cannot cover every alignment of these, and no test looks at the sign of zero.", "anchors": ["rabbit/h5pyutils_write.py:writeFlatInChunks", "rabbit/h5pyutils_read.py:maketensor", "rabbit/tensorwriter.py:add_auxiliary"]}
{"id": "C02", "title": "Channel layout partitions the bin range", "statement": "After any sequence of channel declarations the written workspace assigns every channel a contiguous half-open bin range; the ranges are pairwise disjoint, consecutive, cover [0,nbinsfull) exactly, every unmasked channel lies below nbins and every masked channel lies at or above nbins, and the reader derives the same start/stop as the writer used when filling the tensors.", "quantifier": "every sequence of add_channel calls with any mix of masked/unmasked channels in any order and any axis sizes", "why_tests_cant": "Interleavings of masked and unmasked declarations are unbounded; an off-by-one only shows for particular orders.", "anchors": ["rabbit/tensorwriter.py:TensorWriter.add_channel", "rabbit/tensorwriter.py:TensorWriter.write", "rabbit/inputdata.py:FitInputData"]}
{"id": "C03", "title": "Nominal templates land in the right bins and processes", "statement": "Each histogram booked with add_process is found, after writing and reading, exactly in the (channel bin range, process) block it was declared for, with negative entries clipped to zero unless negative expectation is allowed, and every (bin, process) cell that was never booked is zero. Declaring the same process twice in a channel is an error, and a process cannot be both signal and background.", "quantifier": "every sequence of add_channel/add_process calls, every value, every booking order", "why_tests_cant": "Needs every booking order and every mixture of channels and processes; tests use a couple of fixed channels.", "anchors": ["rabbit/tensorwriter.py:TensorWriter.add_process", "rabbit/tensorwriter.py:TensorWriter.write"]}
{"id": "C04", "title": "Process and nuisance order in the file does not depend on booking order", "statement": "The process axis is the sorted signals followed by the sorted backgrounds, the nuisance axis is the naturally sorted unconstrained systematics followed by the naturally sorted constrained ones; consequently two writers receiving the same declarations in different order (and with any set-iteration order) produce the same axes, whenever the natural-sort keys of the names are distinct.", "quantifier": "all permutations of the declarations, all name sets", "why_tests_cant": "Order-independence quantifies over all permutations and over Python's randomised set iteration order, which a test run samples once.", "anchors": ["rabbit/tensorwriter.py:TensorWriter.get_systsstandard", "rabbit/tensorwriter.py:TensorWriter.get_systs", "rabbit/common.py:natural_sort"]}
{"id": "C05", "title": "Metadata index vectors point at the declared nuisances", "statement": "noiidxs, systgroups/systgroupidxs and constraintweights written to the file are aligned with the nuisance axis: index i is listed for a group iff the nuisance with that name was declared with that group; i is in noiidxs iff it was declared as nuisance of interest; its constraint weight is 0 iff it was declared unconstrained and 1 otherwise.", "quantifier": "every set of declared systematics, groups and flags", "why_tests_cant": "Index alignment through two sorts and a dictionary fails only for special name orders.", "anchors": ["rabbit/tensorwriter.py:TensorWriter.get_noiidxs", "rabbit/tensorwriter.py:TensorWriter.get_groups", "rabbit/tensorwriter.py:TensorWriter.get_constraintweights"]}
{"id": "C06", "title": "Template variations are reproduced at theta = +-1", "statement": "For a log-normal (normal) systematic built from up and down templates and a per-bin nominal of the same sign, evaluating the model prediction with that nuisance at +1 (-1) and all others at 0 gives exactly the up (down) template, with kfactor 1 and no symmetrisation; at 0 it gives the nominal template.", "quantifier": "every nominal, up and down template with positive ratio; any number of bins/processes/other systematics", "why_tests_cant": "Holds over a continuum of real template values; involves composition of the writer's encoding with the fitter's interpolation polynomial.", "anchors": ["rabbit/tensorwriter.py:TensorWriter.get_logk", "rabbit/tensorwriter.py:TensorWriter._compute_asym_syst", "rabbit/fitter.py:Fitter._compute_yields_noBBB"]}
{"id": "C07", "title": "Symmetrisation modes have their documented meaning", "statement": "'average' stores the mean of the up effect and the sign-flipped down effect; 'conservative' stores one of the two with magnitude at least as large as both; 'linear' and 'quadratic' store two nuisances whose (weighted) sum and difference give back the up and down effects; asymmetric storage (no symmetrisation) stores average and half-difference that give back up and down exactly.", "quantifier": "all real effects, bin by bin", "why_tests_cant": "Continuum of values and sign combinations.", "anchors": ["rabbit/tensorwriter.py:TensorWriter._compute_asym_syst", "rabbit/tensorwriter.py:TensorWriter.add_systematic"]}
{"id": "C08", "title": "Asymmetric interpolation is a smooth, odd, saturating switch", "statement": "The interpolation weight used for asymmetric nuisances is an odd function of theta, lies in [-1,1], is nondecreasing, equals the sign of theta for |theta| >= 1/2, and joins the saturated region with matching value and first and second derivative; so a variation beyond half a sigma is exactly the up or the down template slope.", "quantifier": "every real theta", "why_tests_cant": "A statement over all reals.", "anchors": ["rabbit/fitter.py:Fitter._compute_yields_noBBB"]}
{"id": "C09", "title": "Sparse and dense workspaces are equivalent", "statement": "Writing the same declarations in sparse and in dense mode gives workspaces with the same predicted yields: for every parameter value, every bin's expected yield computed by the fitter from the sparse tensors equals the one computed from the dense tensors (log-normal and normal, symmetric and asymmetric storage, with and without masked channels).", "quantifier": "every booking history accepted by both modes and every parameter point", "why_tests_cant": "Two independent assembly code paths with index permutations; equality must hold for every sparsity pattern.", "anchors": ["rabbit/tensorwriter.py:TensorWriter.write", "rabbit/tensorwriter.py:TensorWriter.book_logk", "rabbit/fitter.py:Fitter._compute_yields_noBBB"]}
{"id": "C10", "title": "Sparse tensors are canonical and self-consistent", "statement": "In a sparse workspace the norm indices are strictly increasing in lexicographic order and within the dense shape; every log-variation entry refers to an existing norm entry, namely the one of its own bin and process; the entries are sorted; no value is lost or duplicated by the reordering.", "quantifier": "every booking history", "why_tests_cant": "Depends on the permutation produced by sorting for every possible sparsity pattern.", "anchors": ["rabbit/tensorwriter.py:TensorWriter.write"]}
{"id": "C11", "title": "Log-variations are finite and confined to populated bins", "statement": "A stored variation is zero wherever the nominal template is zero; for log-normal systematics it equals kfactor*log(syst/nominal) when syst and nominal have the same strict sign and the fixed floor log(1e-3) otherwise (independently of kfactor); non-finite templates are rejected with an error and leave the workspace unchanged.", "quantifier": "every nominal and varied template and kfactor", "why_tests_cant": "Value-domain case split over sign combinations and zeros.", "anchors": ["rabbit/tensorwriter.py:TensorWriter.get_logk", "rabbit/tensorwriter.py:TensorWriter.book_logk_avg"]}
{"id": "C12", "title": "Normalisation systematics act on every listed process", "statement": "add_norm_systematic(name, processes, channel, uncertainty) gives every listed process the requested relative effect, whether the uncertainty is one number for all, one number per process, or up/down pairs.", "quantifier": "every list of processes and every uncertainty argument of the accepted forms", "why_tests_cant": "Quantifies over list lengths; silent truncation by zip is invisible in single-process tests.", "anchors": ["rabbit/tensorwriter.py:TensorWriter.add_norm_systematic"]}
{"id": "C13", "title": "Multi-dimensional systematic booking equals one call per slice", "statement": "Booking a systematic template with extra axes gives the same stored variations, the same nuisance names (one per slice of the extra axes, labelled by the bin) and the same groups as a loop of single bookings over the slices; this holds for dense and for the batched sparse path.", "quantifier": "every shape of the extra axes and every content", "why_tests_cant": "Quantifies over all shapes; index arithmetic of the batched path.", "anchors": ["rabbit/tensorwriter.py:TensorWriter.add_systematic", "rabbit/tensorwriter.py:TensorWriter._add_systematics_sparsehist_batched", "rabbit/tensorwriter.py:TensorWriter._get_systematic_slices"]}
{"id": "C14", "title": "Pseudodata selection returns the named dataset", "statement": "Selecting pseudodata by name returns for each requested name the column stored under that name; unknown names raise an error and nothing else is returned.", "quantifier": "every list of stored names and every request", "why_tests_cant": "All orders and duplicates of requests.", "anchors": ["rabbit/inputdata.py:FitInputData"]}
{"id": "C15", "title": "Parameter pattern matching selects exactly the matching parameters", "statement": "For any list of expressions the selected parameters are exactly those equal to one of the expressions or fully matched by one as a regular expression, each once, in the order of the parameter list.", "quantifier": "every parameter list, every list of expressions, every regex semantics", "why_tests_cant": "Duplicates and overlaps of expressions.", "anchors": ["rabbit/fitter.py:match_regexp_params"]}
{"id": "C16", "title": "Freezing algebra", "statement": "After any history of freeze/defreeze calls the frozen mask flags exactly the parameters selected by some freeze call and by no later defreeze call; freezing is idempotent; the mask and the frozen index list always agree.", "quantifier": "every history of freeze and defreeze calls with arbitrary expressions", "why_tests_cant": "History property over unbounded sequences.", "anchors": ["rabbit/fitter.py:Fitter.freeze_params", "rabbit/fitter.py:Fitter.defreeze_params", "rabbit/fitter.py:Fitter.update_frozen_params"]}
{"id": "C17", "title": "Scans leave the fitter as they found it", "statement": "nll_scan and nll_scan2D restore the parameter values and the set of frozen parameters that held before the call, whatever the inner fits do.", "quantifier": "every fitter state, every minimiser behaviour, every scan configuration", "why_tests_cant": "Quantifies over all minimiser behaviours and over states where the scanned parameter was frozen beforehand.", "anchors": ["rabbit/fitter.py:Fitter.nll_scan", "rabbit/fitter.py:Fitter.nll_scan2D"]}
{"id": "C18", "title": "1D scan grid", "statement": "nll_scan returns an odd number of points, strictly increasing for a positive range and uncertainty, symmetric around the current value with the current value in the centre and delta-nll 0 there, spanning exactly +-range (in units of the uncertainty), every entry filled.", "quantifier": "every number of points >= 2, every range, every uncertainty", "why_tests_cant": "All n including odd/even boundary cases.", "anchors": ["rabbit/fitter.py:Fitter.nll_scan"]}
{"id": "C19", "title": "2D spiral scan visits every grid cell exactly once", "statement": "nll_scan2D terminates, visits only cells inside the grid, never revisits a cell, each visited cell is a neighbour of the previous one (warm start), and every cell of the grid is filled at the end.", "quantifier": "every number of scan points", "why_tests_cant": "Holds for every n by induction over rings; tests use one n. Parity matters.", "anchors": ["rabbit/fitter.py:Fitter.nll_scan2D"]}
{"id": "C20", "title": "A frozen parameter has zero gradient", "statement": "The likelihood as differentiated by the minimiser does not depend on a frozen parameter: changing only the tracked value of a frozen parameter leaves every term of the loss unchanged, so its gradient entry and Hessian row vanish and a fit cannot move it.", "quantifier": "every workspace (including external likelihood terms), every frozen set, every parameter point", "why_tests_cant": "Requires all likelihood terms to route the parameter through the same stop-gradient accessor.", "anchors": ["rabbit/fitter.py:Fitter.get_x", "rabbit/fitter.py:Fitter._compute_nll", "rabbit/external_likelihood.py:compute_external_nll"]}
{"id": "C21", "title": "Blinding is a pure reparametrisation", "statement": "With blinding on, the likelihood at stored parameters x equals the unblinded likelihood at the shifted parameters (POI multiplied, nuisance-of-interest added); unblinded and non-interest parameters are not shifted; the parameters of one blinding group share one offset; turning blinding off restores the plain likelihood.", "quantifier": "every parameter point, every offset, every unblind list and blinding group list", "why_tests_cant": "Continuum of offsets; deterministic pseudo-random offsets are not controllable in tests.", "anchors": ["rabbit/fitter.py:Fitter.init_blinding_values", "rabbit/fitter.py:Fitter.set_blinding_offsets", "rabbit/fitter.py:Fitter.get_poi", "rabbit/fitter.py:Fitter.get_theta"]}
{"id": "C22", "title": "No blinding offset survives a reset", "statement": "In any sequence of operations a data fit run as unblinded never sees blinding offsets from an earlier blinded fit: after the default assignment the offsets are neutral until blinding is requested again.", "quantifier": "every sequence of fits on data, Asimov and toys in one session", "why_tests_cant": "Session histories are unbounded.", "anchors": ["rabbit/fitter.py:Fitter.defaultassign", "rabbit/fitter.py:Fitter.set_blinding_offsets", "bin/rabbit_fit.py:main"]}
{"id": "C23", "title": "Signal-strength encoding round-trips", "statement": "Setting a POI default value and reading the POI back through the fitter returns that value, both when negative values are allowed and when the parameter is stored as a square root; in the latter case the POI is never negative at any parameter point.", "quantifier": "every default value (nonnegative in the square-root encoding), every parameter point", "why_tests_cant": "Real-valued.", "anchors": ["rabbit/param_models/param_model.py:ParamModel.set_param_default", "rabbit/fitter.py:Fitter.get_poi"]}
{"id": "C24", "title": "Gaussian priors and constraints form one aligned penalty", "statement": "The constraint term equals the sum over constrained parameters of half the squared pull to the declared centre with weight 1/sigma^2; parameters without a finite positive sigma and unconstrained nuisances contribute nothing; the full form differs from the reduced one by a constant independent of the parameters; priors on square-root-encoded POIs are rejected.", "quantifier": "every model, every prior vector (including non-finite, zero and negative sigmas), every parameter point", "why_tests_cant": "Mixture of masks and real values.", "anchors": ["rabbit/fitter.py:Fitter.init_fit_parms", "rabbit/fitter.py:Fitter._compute_lc"]}
{"id": "C25", "title": "Reduced Poisson likelihood is a deviance", "statement": "For nonnegative observations and positive expectations the reduced Poisson term is nonnegative, is zero exactly when the expectation equals the observation in every bin, is finite for empty bins, and differs from the full negative log-likelihood by a constant depending only on the data.", "quantifier": "all nonnegative data vectors (including zeros), all positive expectation vectors", "why_tests_cant": "Inequality over the reals.", "anchors": ["rabbit/fitter.py:Fitter._compute_ln", "rabbit/fitter.py:Fitter.set_nobs"]}
{"id": "C26", "title": "Bin-by-bin profiling returns the minimiser (lite mode)", "statement": "In 'lite' mode, for every bin the analytically profiled nuisance minimises the sum of that bin's data term and constraint term over its whole domain, for the Poisson and chi-square likelihoods and each constraint type (gamma, normal-multiplicative, normal-additive); bins without a usable MC statistical uncertainty keep their default.", "quantifier": "every bin content, expectation, MC effective statistics and centre value in the domain where the active expectation is positive", "why_tests_cant": "Global optimality over a continuum is not testable pointwise.", "anchors": ["rabbit/bbstat/bbstat.py:BinByBinStat.profile_and_apply", "rabbit/bbstat/formulas.py:solve_quad_eq"]}
{"id": "C27", "title": "Bin-by-bin profiling returns the minimiser (full mode)", "statement": "In 'full' mode, with one nuisance per (bin, process), the profiled nuisances jointly minimise the bin's objective for the chi-square and Poisson likelihoods with normal constraints.", "quantifier": "every number of processes and all real yields in the domain", "why_tests_cant": "Joint optimality over a vector of unknown length.", "anchors": ["rabbit/bbstat/bbstat.py:BinByBinStat.profile_and_apply"]}
{"id": "C28", "title": "Bin-by-bin profiling for covariance fits solves the normal equations", "statement": "For fits with a full data covariance the profiled nuisances solve the linear stationarity equations of the penalised chi-square and hence minimise it, for every positive definite inverse covariance.", "quantifier": "every dimension, every positive semidefinite inverse covariance", "why_tests_cant": "All dimensions.", "anchors": ["rabbit/bbstat/bbstat.py:BinByBinStat.profile_and_apply"]}
{"id": "C29", "title": "Profiling is used safely when a bin has no active expectation", "statement": "If in some bin the processes carrying MC statistical uncertainty predict zero (for example signal strength zero in a signal-only bin) the profiled nuisance still minimises the objective, so that the profiled likelihood is a lower envelope.", "quantifier": "every parameter point including zero signal strength", "why_tests_cant": "Boundary point of a continuum.", "anchors": ["rabbit/bbstat/bbstat.py:BinByBinStat.profile_and_apply"]}
{"id": "C30", "title": "Bin-by-bin constraint term is a nonnegative penalty", "statement": "The reduced constraint term is nonnegative on its domain, zero exactly at the centre, and the masked bins contribute zero whatever their nuisance value for the normal types; the full form differs from it by a constant independent of the nuisance.", "quantifier": "all values", "why_tests_cant": "Continuum.", "anchors": ["rabbit/bbstat/bbstat.py:BinByBinStat.lbeta"]}
{"id": "C31", "title": "A failed minimisation leaves the last accepted iterate", "statement": "If the minimiser raises (NaN loss, early stopping or any error) after any number of trial evaluations, the fitter's parameters are those of the last iteration the callback accepted (or the starting point), never a trial point.", "quantifier": "every interleaving of trial evaluations, accepted iterations and a final exception", "why_tests_cant": "Crash-point property over all schedules.", "anchors": ["rabbit/fitter.py:Fitter.fit", "rabbit/fitter.py:FitterCallback"]}
{"id": "C32", "title": "Early stopping triggers exactly on lack of improvement", "statement": "With early stopping k the callback raises at the first iteration whose loss is not smaller than the loss k recorded iterations earlier, and at any NaN loss; otherwise it records every iteration in order.", "quantifier": "every sequence of losses", "why_tests_cant": "Sequence property.", "anchors": ["rabbit/fitter.py:FitterCallback.__call__"]}
{"id": "C33", "title": "Loading an external fit result updates exactly the shared parameters", "statement": "After loading, every parameter present in both gets the external value, the covariance block between shared parameters is the external block, and all other parameter values and covariance entries are unchanged; order differences between the two parameter lists do not matter.", "quantifier": "all pairs of parameter lists (any order, any overlap)", "why_tests_cant": "All permutations/overlaps.", "anchors": ["rabbit/fitter.py:Fitter.load_fitresult"]}
{"id": "C34", "title": "Every fit of a session starts from the same state", "statement": "The state a fit sees (parameters, constraint centres, bin-by-bin centres, observed data) is a function of the workspace, its own options and its own random draws only, not of the fits that ran before in the same session.", "quantifier": "every preceding history of operations", "why_tests_cant": "Unbounded histories.", "anchors": ["rabbit/fitter.py:Fitter.defaultassign", "rabbit/fitter.py:Fitter.toyassign", "bin/rabbit_fit.py:main"]}
{"id": "C35", "title": "A purely quadratic likelihood is minimised in one step", "statement": "If the likelihood is quadratic with positive definite Hessian the single Newton step performed by the fitter ends at the unique global minimum from any start point; with frozen parameters the frozen coordinates are not moved.", "quantifier": "every dimension, every quadratic form, every start point", "why_tests_cant": "All dimensions.", "anchors": ["rabbit/fitter.py:Fitter.minimize"]}
{"id": "C36", "title": "Covariance with frozen parameters", "statement": "With frozen parameters the covariance block of the floating parameters is the inverse of the floating Hessian block, the estimated distance to minimum uses the floating gradient only, and rows and columns of frozen parameters do not leak into the floating block.", "quantifier": "every frozen set, every Hessian", "why_tests_cant": "All subsets and dimensions.", "anchors": ["rabbit/fitter.py:Fitter.edmval_cov"]}
{"id": "C37", "title": "Traditional impacts", "statement": "The impact of nuisance j on parameter i is the covariance divided by the standard deviation of j; its magnitude never exceeds the total uncertainty of i and equals it for j=i; a group of one nuisance has the same impact as that nuisance; adding nuisances to a group cannot decrease its impact.", "quantifier": "every positive definite covariance, every group", "why_tests_cant": "All covariance matrices.", "anchors": ["rabbit/impacts/traditional_impacts.py"]}
{"id": "C38", "title": "Global impacts add up to the total variance", "statement": "Squared global impacts of the constraint centres, of the bin-by-bin centres and of the data sum to the total variance for every parameter of interest; group impacts are quadrature sums of their members.", "quantifier": "every Jacobian and covariance", "why_tests_cant": "All matrices.", "anchors": ["rabbit/impacts/global_impacts.py"]}
{"id": "C39", "title": "Impact envelopes bracket zero", "statement": "Envelope/quadrature combination of asymmetric impacts always returns a down value <= 0 <= up value, never increases when a member is removed, and propagates failures as missing instead of zero.", "quantifier": "every set of member shifts, including NaN", "why_tests_cant": "All sign patterns.", "anchors": ["rabbit/impacts/asym_impacts.py:_quad_subtract", "rabbit/impacts/nonprofiled_impacts.py:_envelope", "rabbit/impacts/global_asym_impacts.py:_envelope"]}
{"id": "C40", "title": "Grouped asymmetric impacts restore the frozen set", "statement": "Computing grouped asymmetric impacts leaves the set of frozen parameters as it was, even if a fit in between raises, and never unfreezes what the user froze.", "quantifier": "every frozen set, every group, every crash point", "why_tests_cant": "Crash-point property.", "anchors": ["rabbit/impacts/asym_impacts.py:grouped_asym_impacts"]}
{"id": "C41", "title": "Non-profiled impacts attribute each frozen nuisance to its own group", "statement": "The group impact reported for frozen nuisances uses exactly the nuisances that belong to the group in the workspace, for every number of model parameters preceding the nuisances.", "quantifier": "every number of model parameters, groups and frozen sets", "why_tests_cant": "Offset errors vanish when there are no model parameters.", "anchors": ["rabbit/impacts/nonprofiled_impacts.py", "rabbit/fitter.py:Fitter.nonprofiled_impacts_parms"]}
{"id": "C42", "title": "Composite parameter models are products of their parts", "statement": "A composite of several models exposes all parameters with POIs first, keeps names, defaults and priors attached to the right parameter, and its scale factor is the product of the scale factors each part computes from its own parameters, in any nesting order.", "quantifier": "any number of sub-models with any numbers of POIs and nuisances", "why_tests_cant": "Permutation arithmetic for arbitrary counts.", "anchors": ["rabbit/param_models/param_model.py:CompositeParamModel"]}
{"id": "C43", "title": "Mixture model conserves the total and uses the named pair", "statement": "For each declared pair the primary process is scaled by mu and its complementary process so that the fixed relation between the two holds, for the pair the user named, whatever the order of the process axis; other processes are unscaled.", "quantifier": "every process order and every pairing", "why_tests_cant": "Order dependence.", "anchors": ["rabbit/param_models/param_model.py:Mixture"]}
{"id": "C44", "title": "Per-bin axis models scale the bin their label names", "statement": "In models with one free parameter per bin of selected axes, the parameter labelled by bin indices scales exactly the bins with these indices on the named axes and no other, whatever the order in which the axes were requested.", "quantifier": "every channel shape and every requested axis order", "why_tests_cant": "All shapes and orders.", "anchors": ["rabbit/param_models/param_model.py:AxisNormModel"]}
{"id": "C45", "title": "ABCD predictions satisfy the ABCD relation", "statement": "In the (extended) ABCD models the predicted yields of the dependent region satisfy the declared product relation with the other regions at every parameter point, every non-selected process and channel is unscaled, and at the default parameters with the yield correction the prediction of the dependent region equals the MC.", "quantifier": "every parameter point, every region layout", "why_tests_cant": "Continuum and all layouts.", "anchors": ["rabbit/param_models/abcd_model.py"]}
{"id": "C46", "title": "Model parameter names match parameter count", "statement": "The number of names a parameter model publishes equals the number of parameters it consumes, and names are pairwise different, for every specification accepted by the parser.", "quantifier": "every accepted specification", "why_tests_cant": "Specification space is unbounded (negative indices, axis orders).", "anchors": ["rabbit/param_models/abcd_model.py:_build_param_names"]}
{"id": "C47", "title": "Projections conserve the yield", "statement": "Projecting a channel histogram on a subset of its axes, in any order, sums over the other axes: the total is conserved, projecting in two steps equals projecting at once, and each output bin collects exactly the input bins with the same indices.", "quantifier": "every shape and axis subset", "why_tests_cant": "All shapes.", "anchors": ["rabbit/mappings/project.py", "rabbit/mappings/helpers.py"]}
{"id": "C48", "title": "Normalised mapping sums to one", "statement": "The normalised mapping returns nonnegative values summing to one over the normalised axes for every nonnegative non-zero prediction, and is invariant under global scaling.", "quantifier": "all predictions", "why_tests_cant": "Continuum.", "anchors": ["rabbit/mappings/project.py:Normalize"]}
{"id": "C49", "title": "Select and rebin", "statement": "Axis selection keeps exactly the bins in the selected range and rebinning sums exactly the bins of each group; segment ids are nondecreasing, cover all groups, and the total of the kept bins is conserved.", "quantifier": "every axis length and every selection/rebin specification accepted", "why_tests_cant": "All edges and remainders.", "anchors": ["rabbit/mappings/helpers.py"]}
{"id": "C50", "title": "Composite mappings concatenate independent parts", "statement": "The flat prediction of a composite mapping is the concatenation of what each part would return on its own for the same fit state.", "quantifier": "any list of parts", "why_tests_cant": "State leakage between parts.", "anchors": ["rabbit/mappings/mapping.py:CompositeMapping"]}
{"id": "C51", "title": "Specification splitting respects parentheses", "statement": "Splitting a mapping argument at commas never splits inside balanced parentheses and joining the pieces with commas gives back the input.", "quantifier": "every string", "why_tests_cant": "All strings.", "anchors": ["rabbit/mappings/helpers.py"]}
{"id": "C52", "title": "Regularisation penalty", "statement": "The SVD penalty is nonnegative, invariant under a common scaling of prediction and zero whenever the prediction is proportional to the nominal one; bins with zero nominal prediction never cause division by zero.", "quantifier": "all predictions and shapes", "why_tests_cant": "Continuum.", "anchors": ["rabbit/regularization/svd.py"]}
{"id": "C53", "title": "Result groups have distinct, documented names", "statement": "For every combination of toys, Asimov and pseudodata sets in one run each fit result is written to its own group, named after its own dataset only.", "quantifier": "every list of requested fits and every list of pseudodata sets", "why_tests_cant": "All combinations.", "anchors": ["bin/rabbit_fit.py:main"]}
{"id": "C54", "title": "Observed data is blinded exactly as documented", "statement": "A fit is run blinded if and only if it uses the observed data (directly or as the basis of toys); Asimov and expected toys are never shifted.", "quantifier": "every list of fits and toy mode", "why_tests_cant": "All combinations.", "anchors": ["bin/rabbit_fit.py:main"]}
{"id": "C55", "title": "Limit vector packing round-trips", "statement": "Packing and unpacking parameters and the multiplier for the constrained optimisation of limits are inverse to each other for every dimension and every frozen index.", "quantifier": "every dimension", "why_tests_cant": "All dimensions.", "anchors": ["rabbit/asymptotic_limits.py"]}
{"id": "C56", "title": "Channel histograms of the output cover the prediction", "statement": "Splitting a flat prediction into per-channel histograms and concatenating them gives back the prediction; observed data are attributed to the unmasked channels only and with the same ranges.", "quantifier": "every channel list", "why_tests_cant": "All layouts.", "anchors": ["rabbit/workspace.py"]}
{"id": "C57", "title": "External likelihood terms act on the named parameters", "statement": "An external term contributes g.x + 1/2 x.H.x with x the values of the named parameters in the order of the term, for any order of the fit parameters, dense or sparse Hessian; a missing or duplicated name is an error.", "quantifier": "every parameter list and every term", "why_tests_cant": "All permutations.", "anchors": ["rabbit/external_likelihood.py", "rabbit/tensorwriter.py:TensorWriter.add_external_likelihood_term"]}
{"id": "C58", "title": "Datacard conversion preserves the card", "statement": "Every rate, observation and systematic of a counting or shape datacard appears in the converted workspace with the value in the card: nominal yields equal the rate line, every systematic line has an effect on exactly the columns with an entry, and signal processes are those with index <= 0.", "quantifier": "every datacard of the supported grammar", "why_tests_cant": "All cards, any order of lines.", "anchors": ["rabbit/datacard_parser.py", "rabbit/datacard_converter.py"]}
{"id": "C59", "title": "Yield prediction is the documented product", "statement": "The expected yield in a bin is the sum over processes of scale factor times nominal times exp(sum of log variations times nuisance) for log-normal, and scale factor times nominal plus the sum of variations times nuisances for normal systematics; unscaled default parameters reproduce the nominal templates.", "quantifier": "every workspace and every parameter point", "why_tests_cant": "Continuum; composition of indices.", "anchors": ["rabbit/fitter.py:Fitter._compute_yields_noBBB", "rabbit/fitter.py:Fitter._init_logk_scaled"]}
{"id": "C60", "title": "Masked channels never influence the fit", "statement": "The likelihood does not depend on anything in a masked channel: changing masked templates leaves the loss unchanged for every parameter point (without regularisation), while the masked prediction still follows the parameters.", "quantifier": "every workspace, every content of the masked channels", "why_tests_cant": "Non-interference is a two-run property.", "anchors": ["rabbit/fitter.py:Fitter._compute_nll_components", "rabbit/bbstat/bbstat.py"]}
{"id": "C61", "title": "Regularisation only adds its penalty", "statement": "With regularisers configured, the loss equals the loss without them plus exp(2 tau) times the sum of the penalties evaluated at the current parameters and the yields of all bins, whose fit-bin part is what the data term uses; asking for the masked bins does not change the data, constraint or bin-by-bin terms.", "quantifier": "every workspace, parameter point, likelihood type, bin-by-bin mode and list of penalties", "why_tests_cant": "The code recomputes all terms over a longer bin axis; only an algebraic argument shows nothing leaks.", "anchors": ["rabbit/fitter.py:Fitter._compute_nll_components", "rabbit/fitter.py:Fitter._compute_nll"]}
{"id": "C62", "title": "Bin-by-bin toys fluctuate with the width of their constraint", "statement": "When toys randomise the bin-by-bin parameters (values or constraint centres) with a normal distribution, its standard deviation is the width of the constraint term used in the likelihood.", "quantifier": "every template content and bin-by-bin type with a normal constraint", "why_tests_cant": "A statistical check sees a wrong width only with many toys and at one template.", "anchors": ["rabbit/bbstat/bbstat.py:BinByBinStat.randomize_bayes", "rabbit/bbstat/bbstat.py:BinByBinStat.randomize_frequentist"]}
{"id": "C63", "title": "Chi-square fits use the stored data variances", "statement": "In a chi-square fit the variances in the denominator are those stored with the fitted dataset when it has them, for data, pseudodata and toys.", "quantifier": "every dataset with variances different from its counts", "why_tests_cant": "Silent: any variances give a plausible fit.", "anchors": ["bin/rabbit_fit.py:main", "rabbit/fitter.py:Fitter.set_nobs", "rabbit/fitter.py:Fitter.toyassign"]}
{"id": "C64", "title": "Impact histograms are labelled by what they contain", "statement": "Every row of the impact results is labelled with the parameter whose impacts it holds and every column with the group, statistical, bin-by-bin or per-process contribution computed for it, including extra groups of the parameter model; the Hessian-free rows are those of the reported parameters.", "quantifier": "every number of model parameters, nuisances of interest, groups, processes and bin-by-bin mode", "why_tests_cant": "A swapped label produces plausible plots.", "anchors": ["rabbit/workspace.py:Workspace.add_impacts_hists", "rabbit/workspace.py:getGroupedImpactsAxes", "bin/rabbit_fit.py:fit", "rabbit/impacts/traditional_impacts.py", "rabbit/impacts/global_impacts.py"]}
{"id": "C65", "title": "Refit impacts shift one source, restore the fit and agree with the Gaussian ones", "statement": "Each refit of the non-profiled and of the global asymmetric impacts moves exactly one constraint centre by its prefit width, the state afterwards is the one before, entries are the shifts of the refitted parameters in the direction of the source, labels are the varied parameters, and for a quadratic likelihood the result equals the global impacts.", "quantifier": "every fit function, selection of sources, width and starting method", "why_tests_cant": "Relates two algorithms over all likelihoods; leftovers of a shift only show up later.", "anchors": ["rabbit/impacts/nonprofiled_impacts.py", "rabbit/impacts/global_asym_impacts.py", "rabbit/fitter.py:Fitter.global_asym_impacts_parms", "rabbit/fitter.py:Fitter.nonprofiled_impacts_parms"]}
{"id": "C66", "title": "Freeze-group impacts are what freezing the group removes", "statement": "Each column of the grouped asymmetric impacts is the signed quadrature difference between the interval of the target with the user's frozen set and the one where exactly the group members are frozen in addition; failed or impossible scans are missing values; the stat column freezes all constrained nuisances.", "quantifier": "every scan result including infinite and missing ones, every group, frozen set and list of targets", "why_tests_cant": "All groups and interleavings of freezing and releasing.", "anchors": ["rabbit/impacts/asym_impacts.py:grouped_asym_impacts", "rabbit/impacts/asym_impacts.py:_quad_subtract"]}
{"id": "C67", "title": "The saturated test keeps the original parameters and constraint centres", "statement": "The model fitted in the saturated projection test has the original POIs, one strength per bin of the projection and the original other model parameters, and every original parameter and nuisance keeps the constraint centre it had in the nominal fit while the new strengths start from their own; the test is available for every model.", "quantifier": "every model with any numbers of POIs and other parameters, every projection, any centres including randomised ones", "why_tests_cant": "Index arithmetic over two parameter layouts for arbitrary counts.", "anchors": ["bin/rabbit_fit.py", "rabbit/param_models/param_model.py:SaturatedProjectModel"]}
{"id": "C68", "title": "Signal strengths scale exactly the signal processes", "statement": "In the default model each signal process has one strength with its own name, which multiplies this process in every bin; every other process is unscaled.", "quantifier": "every list of signals and other processes, all values", "why_tests_cant": "All numbers of signals and processes.", "anchors": ["rabbit/param_models/param_model.py:Mu"]}
{"id": "C69", "title": "A process selection restricts the result to these processes", "statement": "A mapping given a list of processes returns, in every bin, the value obtained from the summed yields of exactly these processes; without a list all processes are used.", "quantifier": "every list of processes, all yields, all mappings with a process argument", "why_tests_cant": "A silently ignored selection gives plausible numbers.", "anchors": ["rabbit/mappings/helpers.py:Term", "rabbit/mappings/mapping.py:ChannelMapping", "rabbit/mappings/ratio.py", "rabbit/mappings/angular_coefficients.py", "rabbit/fitter.py:Fitter.expected_events"]}
{"id": "C70", "title": "Columns of per-process results carry the name of their process", "statement": "In the per-process output of a selection the column labelled with a process name holds the yields of that process.", "quantifier": "every list of processes in any order", "why_tests_cant": "Swapped labels give plausible stacks.", "anchors": ["rabbit/mappings/mapping.py:ChannelMapping", "rabbit/mappings/helpers.py:Term", "rabbit/workspace.py:Workspace.add_expected_hists"]}
{"id": "C71", "title": "Ratios, asymmetries and differences combine corresponding bins", "statement": "Ratio, normalised ratio, asymmetry and difference combine bin j of the numerator selection with bin j of the denominator selection by their formula; the normalised ratio of proportional distributions is one and an asymmetry of non-negative yields lies in [-1,1].", "quantifier": "every pair of channels, selections, rebinnings and process lists of equal output sizes, all yields", "why_tests_cant": "All shapes and selections.", "anchors": ["rabbit/mappings/ratio.py"]}
{"id": "C72", "title": "Angular coefficients are ratios to the unpolarised cross section", "statement": "The angular coefficient mapping returns in bin (.., i, ..) the yield of helicity bin i+1 over the one of helicity bin 0 of the same bin of the other axes; the Lam-Tung mapping returns A_0 - A_2.", "quantifier": "every position of the helicity axis, every selection, rebinning and sum over the other axes, all yields", "why_tests_cant": "All shapes and axis orders.", "anchors": ["rabbit/mappings/angular_coefficients.py"]}
{"id": "C73", "title": "The covariance of mapped data follows from the variances of the data", "statement": "For projections and selections the covariance of the mapped data is diagonal with the projected variances; for normalised projections the rows of the covariance sum to zero; it is positive semidefinite for every mapping.", "quantifier": "every jacobian, shape, selection and all non-negative variances", "why_tests_cant": "Quantifies over all data.", "anchors": ["rabbit/mappings/mapping.py:Mapping._get_data", "rabbit/mappings/project.py"]}
{"id": "C74", "title": "Axis selections mean what is written", "statement": "Parsing the text written for a list of axis selections (index, slice, sum, rebin, None) gives exactly these selections, new edges and summed axes; an index selects its bin; an unknown axis is an error.", "quantifier": "every list of axis names without separators, every integer, every order", "why_tests_cant": "Infinitely many strings; the order of the parts matters.", "anchors": ["rabbit/mappings/helpers.py:parse_axis_selection"]}
{"id": "C75", "title": "Different mapping requests have different result keys", "statement": "Two requests for mappings with different class or arguments (without spaces) are stored under different keys.", "quantifier": "every pair of argument lists", "why_tests_cant": "All pairs of strings.", "anchors": ["rabbit/mappings/mapping.py", "rabbit/mappings/ratio.py", "rabbit/mappings/angular_coefficients.py"]}
{"id": "C76", "title": "Process lists of mapping arguments are used", "statement": "The process lists in the arguments of Select, Ratio and AngularCoefficients reach the mapping as written, with and without axis selections.", "quantifier": "every argument list", "why_tests_cant": "All strings.", "anchors": ["rabbit/mappings/mapping.py:Select.parse_args", "rabbit/mappings/ratio.py:Ratio.parse_args", "rabbit/mappings/angular_coefficients.py:AngularCoefficients.parse_args"]}
{"id": "C77", "title": "The optimiser of the likelihood limit gets the gradients of its functions", "statement": "The gradient handed to scipy for the constraint cl*cdf(qA-qmu)+cdf(qmu)-1 is its gradient with respect to the packed vector, including the shared entry, and the jacobian of the objective is the derivative of the objective.", "quantifier": "every dimension, index, pair of differentiable likelihoods, point and minimum", "why_tests_cant": "Quantifies over all likelihoods and points; derivative statement.", "anchors": ["rabbit/asymptotic_limits.py:compute_likelihood_limit"]}
{"id": "C78", "title": "Expected Gaussian limits are the observed limits at the quantiles", "statement": "The expected limit for quantile cl_b is the unique solution of the equation solved for the observed limit if the observation is at that quantile; for every observation and both errors there is exactly one limit, and the values below it are those whose CLs is above the level; limits grow when the level shrinks; the error of a squared parameter is propagated.", "quantifier": "every level, quantile, error, distribution function", "why_tests_cant": "Unique root for all values.", "anchors": ["bin/rabbit_limit.py:do_asymptotic_limits", "rabbit/asymptotic_limits.py:compute_gaussian_limit"]}
{"id": "C79", "title": "Limits use the value of the named parameter", "statement": "The best-fit value used for the limit on a parameter is the value of that parameter in the full parameter vector; an unknown name is an error.", "quantifier": "every number of parameters of interest, model nuisances and systematics, every name", "why_tests_cant": "All combinations of counts and positions.", "anchors": ["bin/rabbit_limit.py:do_asymptotic_limits"]}
{"id": "C80", "title": "The observed limit uses the data set of its fit", "statement": "For an asimov, data or toy fit the fitter used for the observed limit holds the data set of that fit with the blinding of a data fit; the asimov fitter holds the prediction of the background-only fit.", "quantifier": "every fit number, option and data set", "why_tests_cant": "All histories of a session.", "anchors": ["bin/rabbit_limit.py:main", "bin/rabbit_limit.py:do_asymptotic_limits"]}
{"id": "C81", "title": "Stored results do not overwrite each other", "statement": "The results dictionary is a finite map from mapping, channel and name; results of different mappings, channels, kinds and scans have different keys, so that everything stored can be read back.", "quantifier": "every sequence of stored results, every mapping, channel and parameter name", "why_tests_cant": "All sequences of writes.", "anchors": ["rabbit/workspace.py:dump_obj", "rabbit/workspace.py:add_expected_hists", "rabbit/workspace.py:add_nll_scan2D_hist"]}
{"id": "C82", "title": "The postfix is put before the extension of the output file", "statement": "The output file is outdir/outname with the postfix before the extension and the default extension if there is none; different postfixes give different files.", "quantifier": "every directory, name and postfix", "why_tests_cant": "All strings.", "anchors": ["rabbit/workspace.py:get_file_path"]}
{"id": "C83", "title": "Data and pseudodata land in the bins of their channels", "statement": "In the written workspace every bin of every unmasked channel holds the observed value and, per pseudodata set, the pseudodata value that was added for that channel at that bin, wherever the channel ends up in the file; data or one pseudodata set of a channel cannot be set twice; a data set is written for every pseudodata name.", "quantifier": "every history of writer calls, every order of channels, data and pseudodata calls", "why_tests_cant": "All interleavings of calls and all channel layouts, masked and unmasked.", "anchors": ["rabbit/tensorwriter.py:TensorWriter.add_data", "rabbit/tensorwriter.py:TensorWriter.add_pseudodata", "rabbit/tensorwriter.py:TensorWriter.write"]}
{"id": "C84", "title": "Merging input files keeps every channel, process, template and nuisance", "statement": "The file made by merge_inputs.py holds each channel of each input once with its axes, data and templates, processes and nuisances of the same new name are shared, nuisances keep constraint, parameter-of-interest flag, groups and effects, and a fit to the merged file predicts in each channel what a fit to the single file predicts.", "quantifier": "every list of input files, every renaming, every parameter values and types of systematics", "why_tests_cant": "All inputs and renamings; equality of predictions for all parameter values.", "anchors": ["bin/merge_inputs.py:main", "rabbit/debugdata.py:FitDebugData.__init__", "rabbit/debugdata.py:FitDebugData.procsForNonzeroSysts"]}
{"id": "C85", "title": "Impacts are read back and printed with the name they belong to", "statement": "Reading the impacts of a parameter from the file of a fit gives the values computed for that parameter, each with the name of its source, with the parameter's own uncertainty as the total and pulls in the same order as the names; the printed table has one line per source with its own value, sorted if asked for.", "quantifier": "every table of impacts of every type, every parameter, name, order and scale", "why_tests_cant": "All sizes, names and sequences of stored results.", "anchors": ["rabbit/io_tools.py:read_impacts_poi", "bin/rabbit_print_impacts.py:main", "rabbit/workspace.py:add_impacts_hists"]}
{"id": "C86", "title": "Pulls and constraints are printed for every wanted parameter", "statement": "Every parameter that matches the filters and is not excluded is printed once, with its own fitted value and uncertainty, its own prefit value and uncertainty and its own asymmetric uncertainties, in the requested order.", "quantifier": "every parameter list, filter, sorting and fit result", "why_tests_cant": "All combinations of filters and orders.", "anchors": ["rabbit/io_tools.py:get_pulls_and_constraints", "rabbit/io_tools.py:_filter_nuisance_data", "bin/rabbit_print_pulls_and_constraints.py:main"]}
{"id": "C87", "title": "The covariance of selected channels is their block", "statement": "The covariance returned for a list of channels holds, for every pair of bins of these channels, the covariance of these bins; the order of channels is that of the file; the requested group of results is read, by default the fit to data, then the asimov fit.", "quantifier": "every list of channels and sizes, every covariance, every set of stored results", "why_tests_cant": "All layouts of channels.", "anchors": ["rabbit/io_tools.py:get_postfit_hist_cov", "rabbit/io_tools.py:get_fitresult"]}
{"id": "C88", "title": "The Newton iteration for gamma constraints per process seeks the joint minimum", "statement": "With gamma constraints and one nuisance per process and bin, the nuisances are tied to one variable per bin such that all of them are positive; the function of this variable is the joint objective of data and constraints, has exactly one stationary point, and there the nuisances are the unique joint minimum; every Newton step goes towards it and all bins are iterated until they have reached it.", "quantifier": "every number of processes, yields, MC sums, centres, observations, both likelihoods, every starting point and curvature", "why_tests_cant": "A continuum of bins; the iteration couples all bins through one stopping criterion.", "anchors": ["rabbit/bbstat/bbstat.py:_newton_solve_nbeta", "rabbit/bbstat/bbstat.py:fnll_nbeta"]}
{"id": "C89", "title": "Uncertainties of predictions are those of the joint estimate", "statement": "The covariance of a prediction, obtained by propagating first the parameters with the bin-by-bin nuisances following and then those nuisances at fixed parameters, is the one of the joint estimate of both; it is a covariance matrix, its diagonal does not depend on whether the matrix is requested; before the fit it is the sum of independent contributions, into which the variations decompose; variations with correlations move the parameters as a refit with one of them held would.", "quantifier": "every number of parameters, bin-by-bin nuisances and bins, every curvature, derivative and set of frozen parameters and unused nuisances", "why_tests_cant": "An identity between two propagation paths in arbitrarily large matrices.", "anchors": ["rabbit/fitter.py:_expected_with_variance", "rabbit/fitter.py:_expected_variations", "rabbit/fitter.py:prefit_covariance"]}
{"id": "C90", "title": "The goodness of fit is the minimum of the likelihood", "statement": "For a linear prediction with Gaussian uncertainties the chi-square of residuals and their covariance, before the fit and after it with profiling, is twice the smallest value that the likelihood can take; the degrees of freedom of the saturated test are bins minus free parameters.", "quantifier": "every number of bins, parameters and nuisances, every data covariance, response and constraint", "why_tests_cant": "Equality of numbers that come from different matrices, for every data covariance; agreement on examples says nothing about singular cases.", "anchors": ["rabbit/fitter.py:_residuals", "rabbit/fitter.py:_residuals_profiled", "rabbit/fitter.py:chi2", "rabbit/mappings/mapping.py:56"]}
{"id": "C91", "title": "Contour scans report the ends of the profile likelihood interval and leave the fit as it was", "statement": "Whatever the minimiser asks during a contour scan, cached or not, it is told the value, gradient and curvature of the likelihood at that point; the parameters are put back after success and failure; the table holds for every parameter and level the displacements at both ends; for a Gaussian likelihood the minimiser starts at the solution; the point sought is where the profile likelihood has the level.", "quantifier": "every terminating minimiser and order of questions, all five curvature modes, every likelihood, covariance, set of frozen parameters, list of parameters, levels and sides", "why_tests_cant": "The minimiser's questions are unbounded and adaptive, and two caches share their keys.", "anchors": ["rabbit/fitter.py:contour_scan", "bin/rabbit_fit.py:748"]}
{"id": "C92", "title": "Systematic uncertainties in the covariance of the data act as explicit nuisances", "statement": "A variation added to the data covariance is stored as the absolute change of its process; the file holds the inverse of the covariance of the data plus the outer products of the changes of the total yields (and the statistical variances of the prediction if requested); for every prediction the chi-square with it is the minimum over one unit nuisance per variation of the chi-square in which they are explicit.", "quantifier": "every number of channels, bins, processes and variations, every data covariance and residual, every kind of symmetrisation", "why_tests_cant": "The minimum is over all values of all nuisances, for every residual.", "anchors": ["rabbit/tensorwriter.py:1995-1999", "rabbit/tensorwriter.py:2088-2124", "rabbit/tensorwriter.py:book_systematic", "rabbit/tensorwriter.py:add_systematic"]}
{"id": "C93", "title": "Template variations tied to the statistical nuisances of another channel", "statement": "For every set of channels in any order of declaration and every sequence of accepted calls of add_beta_variations, the array hbetavariations holds at (I, J, k) exactly the value requested last for the masked channel and bin of I, the channel of the fit and bin of J, and process k, and zero elsewhere. In a fit with multiplicative nuisances per process, a fluctuation of the nuisance of bin J by t standard deviations changes the nominal prediction of bin I by t times that value, in proportion for predictions moved by other parameters; predictions of channels in the fit are not changed, and nothing changes with the nuisances at their nominal values.", "quantifier": "every list of channels with distinct names, masked or not, of any sizes; every list of processes; every sequence of requests; every nominal yield > 0, every effective statistics > 0 and mask; every value of the nuisances", "why_tests_cant": "Offsets of channels are counted in two different ways, over all channels in the order of the file and over the channels of the fit in the order of declaration; mistakes show only for some orders of declaration, and a variation is ignored without notice in other modes of the fit.", "anchors": ["rabbit/tensorwriter.py:1264-1315 TensorWriter.add_beta_variations", "rabbit/tensorwriter.py:1930-1991 TensorWriter.write", "rabbit/inputdata.py:104-107", "rabbit/bbstat/bbstat.py:838-912"]}
{"id": "C94", "title": "Auxiliary bundles survive the file", "statement": "For every sequence of calls of add_auxiliary with distinct names, writing succeeds, the rest of the file is unchanged, and reading returns exactly these bundles under their names: every numeric array with its type, shape and values (up to the sign of zeros), every list of names as the same list. A repeated name raises RuntimeError. A file without bundles gives an empty dictionary.", "quantifier": "every number of bundles and entries; every numeric type, shape and content, every chunk size; every non-empty list of strings without zero bytes; names and keys without slashes; every other content of the file", "why_tests_cant": "The guarantee is over all shapes, types and chunk boundaries and all combinations of names; a handful of arrays written in a test does not show which values of names, lists or arrays fail.", "anchors": ["rabbit/auxiliary.py:29-111 write_auxiliary_group, read_auxiliary_from_h5", "rabbit/tensorwriter.py:1450-1470 TensorWriter.add_auxiliary", "rabbit/inputdata.py:202-205"]}
{"id": "C95", "title": "The curvature used to choose the regularisation strength is the curvature of the L-curve", "statement": "Let x(tau) be the minima of data term + exp(2 tau) * penalty as functions of the regularisation strength. At a minimum, compute_curvature returns the signed curvature of the plane curve (log of the data term, log of the penalty) along x(tau), where the data term is the one of the fit. Along the curve the data term strictly rises and the penalty strictly falls. A scan returns this number for each of its strengths; the optimisation stops at a strength where the curvature is largest and returns this curvature.", "quantifier": "All numbers of parameters and regularizers, all twice differentiable likelihoods and penalties with a positive-definite Hessian, all twice differentiable paths of minima, all strengths, all minimisers.", "why_tests_cant": "The formula uses nested automatic differentiation at fixed parameters; whether the terms left out matter depends on the whole likelihood, and a test with one fit cannot tell an approximation from the exact curvature.", "anchors": ["rabbit/regularization/lcurve.py:8-83 _compute_curvature", "rabbit/regularization/lcurve.py:91-110 l_curve_scan_tau", "rabbit/regularization/lcurve.py:113-146 neg_curvature_val_grad_hess", "rabbit/regularization/lcurve.py:149-234 l_curve_optimize_tau", "rabbit/fitter.py:2077-2120 Fitter._compute_nll_components, _compute_nll", "bin/rabbit_fit.py:529-537"]}
{"id": "C96", "title": "Input files of every age are read with their meaning", "statement": "Reading an input file gives every field the dataset of its name; optional datasets are None when absent and the defaults are log_normal and not symmetric; a complete file is read, a missing required dataset is an error. Every bin belongs to exactly one channel, the channels following one another in the order of the metadata; without metadata the bins with data are ch0 and the rest ch1_masked. A file which stores the effective number of events hkstat instead of weights gives that number back in every bin, from dense and from sparse templates, and the same statistical nuisances as a current file; masked bins have no data, in all modes.", "quantifier": "All files with any subset of the datasets, all numbers of bins, processes and channels, dense and sparse, all likelihood types.", "why_tests_cant": "The fallbacks are only reached with files of older versions, which no test contains; wrong alignment of arrays shows only for some combinations of numbers of bins and processes.", "anchors": ["rabbit/inputdata.py:11-219 FitInputData", "rabbit/bbstat/bbstat.py:107-187 BinByBinStat.__init__", "rabbit/bbstat/bbstat.py:838-911 profile_and_apply", "rabbit/workspace.py:231-316 add_observed_hists", "rabbit/param_models/param_model.py:418-424 SaturatedProjectModel.compute"]}
{"id": "C97", "title": "The report on an input file names exactly what is wrong with it", "statement": "For dense files of channels without flow, rabbit_debug_inputdata reports exactly: the nuisances that change no yield, the processes that no nuisance changes, the chosen channels without masked bins whose data add up to zero, the processes whose template adds up to zero in a chosen channel, the bins of the chosen channels with prediction below one, with data below ten and with a statistical uncertainty above the (positive) prediction, and the pairs of process and nuisance with a yield that grows above a factor two at +1 or falls below one half at -1. The number of issues is zero exactly when all lists are empty.", "quantifier": "All input files: any numbers of channels, axes, bins, processes and nuisances, both systematic types, symmetric and asymmetric variations, any choice of channels.", "why_tests_cant": "The script only prints; a wrong slice or threshold yields a plausible report, and an issue that is not reported is not noticed.", "anchors": ["bin/rabbit_debug_inputdata.py:25-249 debug_input_data", "rabbit/debugdata.py:8-122 FitDebugData", "rabbit/debugdata.py:124-163 nonzeroSysts, channelsForNonzeroSysts"]}
{"id": "C98", "title": "The plot of pulls and impacts shows the values of the fit under their names", "statement": "For a fit result written by the fit, the table behind rabbit_plot_pulls_and_impacts has, for symmetric impacts, one row for every parameter (or group, and the total) that passes the filters and the grouping and is not the parameter of interest itself, with its impact (scaled, or divided by the postfit uncertainty), its pull, its constraint and the pull in units of sqrt(1 - constraint^2). Impacts on a bin are joined with the pulls by name. With a reference every label of either table occurs once with the cells of both. The rows that are shown are the wanted number with the largest values, in order. The bars have the value of the cells, one-sided bars the size of the impact, and the boxes of the reference reach from its pull minus to its pull plus its constraint. The files of the bins of a channel differ.", "quantifier": "All fit results, parameters, groups, filters, scale factors, references, sort modes and numbers of rows.", "why_tests_cant": "The script only draws; a bar under a wrong label or a cut at the wrong end still gives a plot.", "anchors": ["bin/rabbit_plot_pulls_and_impacts.py:624-744 readFitInfoFromFile", "bin/rabbit_plot_pulls_and_impacts.py:747-856 readHistImpacts", "bin/rabbit_plot_pulls_and_impacts.py:859-938 make_plots", "bin/rabbit_plot_pulls_and_impacts.py:239-620 plotImpacts", "bin/rabbit_plot_pulls_and_impacts.py:941-1085 load_dataframe_parms, load_dataframe_hists", "bin/rabbit_plot_pulls_and_impacts.py:1188-1420 main"]}
{"id": "C99", "title": "Templates given as scipy sparse arrays give the same model as the dense arrays", "statement": "A scipy sparse array with one or two dimensions and without repeated coordinates, entries in any order, gives a row with strictly increasing flat indices, the same stored values, and in every bin the content at the coordinates of the bin. What is booked in sparse mode, in dense mode and from the dense array is the same histogram, and two scripts whose histograms have the same contents (as sparse or dense arrays, written in sparse or dense mode) predict the same for all parameter values. Without flow bins an array is accepted exactly if its size is the size of the channel.", "quantifier": "All shapes, entries in any order, scripts, modes and parameter values.", "why_tests_cant": "The tests book sparse arrays that come from a dense histogram, so the entries are sorted and unique.", "anchors": ["rabbit/tensorwriter.py:93-141 _sparse_to_flat_csr", "rabbit/tensorwriter.py:143-168 get_flat_values, get_flat_variances", "rabbit/tensorwriter.py:285-313 _check_hist_and_channel"]}
{"id": "C100", "title": "Every result asked for is stored, with uncertainties that belong to it", "statement": "A fit whose covariance is computed stores exactly what the options ask for: per mapping and per fit, for every combination of options. Everything from before the fit is evaluated at the starting values and uses the prefit covariance (unit errors for the variations, after which the covariance is put back); everything after it is evaluated at the point of the results and uses the inverse Hessian at this point. A fit with a covariance succeeds unless a 2D contour scan is asked for; with --noHessian it succeeds exactly if the options are accepted and nothing else needs a covariance.", "quantifier": "All combinations of the options, lists of mappings, scans and external results.", "why_tests_cant": "A test runs some combinations of options; what is missing from the file is not noticed, and an uncertainty from another covariance is a number like any other.", "anchors": ["bin/rabbit_fit.py:335-349 save_observed_hists", "bin/rabbit_fit.py:352-515 save_hists", "bin/rabbit_fit.py:518-789 fit", "bin/rabbit_fit.py:792-824 main (incompatible options)", "bin/rabbit_fit.py:909-986 main", "rabbit/workspace.py:33-52 names", "rabbit/fitter.py:503-552 load_fitresult", "rabbit/fitter.py:1934-2004 expected_with_variations, prefit_covariance"]}
{"id": "C101", "title": "Plots of histograms show every bin once and label what they show correctly", "statement": "The plots made for slices along selected axes partition the bins: each bin of a histogram is shown in exactly one plot, the yields of the plots add up to the total and no file of a plot is overwritten by another. Each label of a variation is drawn with the histogram it stands for, in both panels. In ratios the band is the relative uncertainty around the prediction and a scaled variation has a scaled deviation. The chi2 shown is written together with its own number of degrees of freedom and kind. What is read under the name of a histogram has been stored by a fit that was asked for it.", "quantifier": "All histograms, selections of axes, lists of variations, files, groups and labels, all values and uncertainties, and all sets of stored results.", "why_tests_cant": "The output of a plotting script is a picture: nobody compares it bin by bin to the input, and a wrong label or band looks like a right one.", "anchors": ["bin/rabbit_plot_hists.py:334-360 yield tables", "bin/rabbit_plot_hists.py:408-413 normToData", "bin/rabbit_plot_hists.py:820-1000 lower panel", "bin/rabbit_plot_hists.py:1226-1352 histograms and variations", "bin/rabbit_plot_hists.py:1354-1478 slices", "bin/rabbit_plot_hists.py:1481-1519 get_chi2", "bin/rabbit_plot_hists.py:1538-1563 labels", "bin/rabbit_plot_hists.py:1604-1644 main"]}
{"id": "C102", "title": "Plots of likelihood scans show the profile likelihood, the Hessian curves and the contours where they belong", "statement": "The curve of a scan has all scan points with a value, once and in order, at -2 delta log L. The parabola drawn for the Hessian is the profile likelihood of the Gaussian likelihood with this Hessian, so for a Gaussian likelihood the scan and the ends of contour scans lie on it. The ellipse drawn for two parameters consists of exactly the points where this profile likelihood in both parameters has the level of the contour, it extends to sqrt(level) standard deviations, scaling parameters scales it, and its levels have the probabilities they are labelled with. The map of a two-dimensional scan has the value of the scan at each point.", "quantifier": "All scans, numbers of parameters, positive definite Hessians with frozen parameters, levels, scales and names.", "why_tests_cant": "Whether the red and black curves agree is judged by eye; that they agree for every Gaussian likelihood, with any number of profiled parameters, is a statement about matrices.", "anchors": ["bin/rabbit_plot_likelihood_scan.py:52-158 plot_scan", "bin/rabbit_plot_likelihood_scan.py:161-231 main", "bin/rabbit_plot_likelihood_scan2D.py:84-107 writeOutput", "bin/rabbit_plot_likelihood_scan2D.py:110-129 ellipse", "bin/rabbit_plot_likelihood_scan2D.py:132-312 plot_scan", "bin/rabbit_plot_likelihood_scan2D.py:315-406 main", "rabbit/workspace.py:352-377 add_nll_scan_hist, add_nll_scan2D_hist"]}
{"id": "C103", "title": "Plots of the templates of an input file show each set of axes and each slice once, with all events that belong to a bin", "statement": "For every channel there is one plot for each nonempty set of its axes (restricted by --hists), and with --selectionAxes one for each combination of their bins. Each bin of a plot has the sum, over the chosen processes, of all that the templates have in the bins of the channel it stands for; the same holds for the data. The stack adds up to the prediction, --normToData gives the prediction the yield of the data, a variation is drawn with its own label in its direction and for the processes of the prediction, and different plots go to different files.", "quantifier": "All channels, numbers and sizes of axes, templates, processes, variations, selections and options of the script.", "why_tests_cant": "Plots are looked at for a few channels; which bins were added up, or whether Up and Down are exchanged, cannot be seen in them.", "anchors": ["bin/rabbit_plot_inputdata.py:107-177 make_plots", "bin/rabbit_plot_inputdata.py:180-458 make_plot", "bin/rabbit_plot_inputdata.py:461-622 main", "rabbit/debugdata.py:7-122 FitDebugData.__init__"]}
{"id": "C104", "title": "Plots of covariance matrices show the rows and columns of the bins or parameters that they name", "statement": "For every mapping with a stored covariance matrix the whole matrix is drawn, then that of each channel with the bins of this channel, then for each combination of bins of the selected axes the matrix of exactly the bins of this slice, all in the order of the flattened histogram. The matrix of the parameters has the named parameters in the order in which they are named, with their labels. A correlation is the covariance over both standard deviations, is at most one in size and one on the diagonal; it is undefined exactly if a variance is not positive. The slices of a channel go to different files.", "quantifier": "All numbers of channels, axes, bins, selected axes, lists of parameters, matrices and options of the script.", "why_tests_cant": "A plot of a matrix with hundreds of bins looks right also if it shows another channel; offsets matter from the second channel on, and the order of flattened axes from the second axis on.", "anchors": ["bin/rabbit_plot_cov.py:68-165 plot_matrix", "bin/rabbit_plot_cov.py:168-377 main", "rabbit/workspace.py:283-296 add_observed_hists (where the covariance of the data is stored)", "rabbit/workspace.py:570-586 add_expected_hists (where that of the prediction is stored)"]}
{"id": "C105", "title": "Plots of uncertainties show each source in percent of the prediction of its own bins", "statement": "For every channel of a mapping there is one plot for each combination of bins of the selected axes, each in its own file. It has one line for each stored uncertainty that passes the filter and is in the grouping, in the order of the fit result, and one for the total if the grouping has it. In each bin of the slice, in the order of the axes of the plot, an impact line is the stored impact in percent of the prediction of the same bin (or its value with --absolute), and the total line is the standard deviation of the prediction in the same units. Up to twenty lines have different colours.", "quantifier": "All numbers of axes, bins, selected axes, uncertainties, values and options of the script.", "why_tests_cant": "A line that is divided by the prediction of another bin, or labelled with another source, looks like any other line.", "anchors": ["bin/rabbit_plot_hists_uncertainties.py:111-256 make_plot", "bin/rabbit_plot_hists_uncertainties.py:259-384 make_plots", "bin/rabbit_plot_hists_uncertainties.py:387-459 main"]}
{"id": "C106", "title": "A copy of the fitter is a working fitter of its own", "statement": "After init_fit_parms and any use of the fitter, copy.deepcopy of it succeeds; the copy refers to no object of the original, keeps which of its parts are shared, and its compiled functions act on the copy with the same options. From then on, for every two programs that use the copy and the original in turns, the copy shows what the original would show if it had run the program of the copy alone, and the original what it would show without the copy. So the saturated fit and the Asimov fit of the limits leave the fit they start from as it is.", "quantifier": "All object graphs, with shared objects and cycles, all attributes and values, all interleavings of reads, writes, new objects and calls.", "why_tests_cant": "A shared tensor or a function bound to the wrong fitter gives plausible numbers, and only when the two fits run one after the other in the same job.", "anchors": ["rabbit/fitter.py:474-502 __deepcopy__", "rabbit/fitter.py:459-472 init_fit_parms", "rabbit/fitter.py:2129-2195 _make_tf_functions", "bin/rabbit_fit.py:403-445", "bin/rabbit_limit.py:79-80"]}
{"id": "C107", "title": "The options of a fit have the meaning of their help texts, and only meaningful ones start", "statement": "A fit starts exactly if the systematic type of the file is known, the compilation option is one of its three values, at most one of the chi-square fits is asked for, the covariance fit finds a covariance in the file, and the type and mode of the bin-by-bin treatment are known and implemented for the likelihood. Then: the likelihood is the one asked for, with the covariance of the file; nothing is compiled for the accelerator with sparse input nor with the option off, and never the forward derivative; the product with the Hessian is one of those built; 'automatic' types resolve as described; the one-step minimisation is used exactly if it is forced or the problem looks linear, and in the latter case the likelihood is quadratic.", "quantifier": "All option values including arbitrary strings, all inputs; for the last part all problems, parameter points, frozen and blinded parameters.", "why_tests_cant": "Tests run a few combinations of options; a fallback that raises or a linear step for a nonlinear likelihood shows only in the combination nobody ran.", "anchors": ["rabbit/fitter.py:107-238 __init__", "rabbit/fitter.py:443-452 init_fit_parms", "rabbit/fitter.py:2129-2195 _make_tf_functions", "rabbit/bbstat/bbstat.py:38-115 __init__", "rabbit/bbstat/bbstat.py:254-262 is_linear", "rabbit/parsing.py:203-235, 402-413"]}
{"id": "C108", "title": "The command lines of the parameter models mean what their help texts say, and nothing else is accepted", "statement": "Every line that follows the documented form of a parameter model builds exactly the documented model: options in their order, the process, and per region a channel with its axis selections, assigned to the regions in the documented order; the form is unambiguous, and every line that does not follow it is an error. Comma separated names reach the models as lists, wrong numbers of arguments and unknown names are errors, no option at all means signal strengths, and several lines build the composite of their models. A starting value must name a parameter of every model that uses starting values.", "quantifier": "All token lists of any length and content, all input data, all file contents, all starting values; custom classes are arbitrary.", "why_tests_cant": "Tests parse a handful of lines; swapped regions, a swallowed token or a misread option give a fit that runs with another background model.", "anchors": ["rabbit/param_models/abcd_model.py:224-280 parse_args", "rabbit/param_models/extended_abcd_model.py:183-243 parse_args", "rabbit/param_models/smooth_abcd_model.py:246-306 parse_args", "rabbit/param_models/smooth_extended_abcd_model.py:282-373 parse_args", "rabbit/param_models/abcd_isomtmt_model.py:59-104", "rabbit/param_models/param_model.py:42-43, 344-359, 469-476, 632-649, 830-837 parse_args", "rabbit/param_models/helpers.py:1-48", "rabbit/common.py:24-47 load_class_from_module"]}
{"id": "C109", "title": "The scan of a contour in two parameters solves the stated problem, and what that problem is", "statement": "At angle 2 pi i / n the minimiser gets the likelihood constraint at level cl^2/2, the constraint to the line through the best fit and the squared distance as objective, each with its correct derivatives; the entry is the pair of values it ends with, NaN if it fails, and the parameters are put back. A solution lies on the contour of the profile likelihood of the two parameters; for a Gaussian likelihood it is where the line meets the ellipse of the covariance. The angle axis of the output is centred on the scanned angles and covers one turn.", "quantifier": "All likelihoods, all minimisers (any questions in any order), all pairs of parameters, all levels, all numbers of points, any number of other parameters.", "why_tests_cant": "The scan depends on an external minimiser; a wrong derivative, sign or level gives a plausible curve.", "anchors": ["rabbit/fitter.py:2752-2854 contour_scan2D", "rabbit/workspace.py:396-419 contour_scan2D_hist", "bin/rabbit_fit.py:770-790"]}
{"id": "C110", "title": "Uncertainties without the Hessian are those of the covariance, within the tolerance", "statement": "At a minimum the conjugate gradient solves of a fit with --noHessian converge within the allowed iterations for every tolerance, so the step does not fail. The estimated distance to the minimum and the variances of the parameters asked for are never larger than the true ones, and smaller by at most the squared tolerance over the smallest curvature. Frozen parameters do not enter. Every parameter of interest has its variance at its own position, all parameters not asked for are NaN.", "quantifier": "All Hessians that are positive on the floating parameters, any number of parameters, any frozen set, any gradient, any tolerance.", "why_tests_cant": "Tests compare one fit at one tolerance; convergence for every problem and the sign and size of the error cannot be tested.", "anchors": ["rabbit/fitter.py:956-1020 edmval_cov_rows_hessfree", "bin/rabbit_fit.py:625-660"]}
{"id": "C111", "title": "Asymmetric impacts are computed for the right parameters", "statement": "The nuisances marked as asymmetric are exactly those with a stored half-difference above the tolerance, for dense and sparse tensors alike. Moving the others up or down by the same amount changes every prediction by the same factor (difference for additive variations) in opposite directions; moving a marked one never does where the prediction is not zero. The scanned nuisances are exactly those that pass the include and exclude expressions (and the mask if asked for), in order and under their own names; the shifted constraints exactly those of constrained nuisances and priored parameters that pass. Group impacts are filled in the columns of the parameters and nuisances of interest.", "quantifier": "All tensors, both layouts and variation types, all values of the nuisances, all names and expressions, all constraint weights.", "why_tests_cant": "Tests look at one file and a few expressions; that no skipped nuisance is asymmetric for any values, and that the two layouts agree, are statements about all files.", "anchors": ["rabbit/impacts/asym_impacts.py:36-58 asymmetric_nuisance_mask", "rabbit/fitter.py:1146-1219 asym_impacts_parms", "rabbit/fitter.py:1262-1304 global_asym_impacts_parms"]}
{"id": "C112", "title": "Histograms named in a datacard are found in the ROOT files", "statement": "Paths of shape files are taken relative to the directory of the card, every file is opened and looked up under the path of its shape. ROOT finds exactly the histograms at the path. uproot finds exactly the one-dimensional ones that are at least as deep as the deepest nominal pattern, or whose directory has no further directories. Substituting process, channel, systematic and mass does not change the depth of a pattern, so both readers give the same result for all names made from patterns of that depth.", "quantifier": "All files (trees of directories of any depth), all cards and patterns, all names without slashes, both readers.", "why_tests_cant": "Tests read a few files with one layout; which layouts lose histograms is a statement about all trees.", "anchors": ["rabbit/datacard_converter.py:57-114, 150-189", "rabbit/datacard_parser.py:169-188"]}
{"id": "C113", "title": "The diagnostics of the fit report the distance to the minimum and leave the fit unchanged", "statement": "With --diagnostics the estimated distance to the minimum is logged at every Hessian of the minimiser and after every refit of a frozen parameter. Where the Hessian is positive definite the logged value is the largest decrease of the quadratic approximation, the same number that is computed with the covariance matrix. If the Hessians looked at are regular, the fit ends in the same point with the same history as without the option. Solving fails exactly for singular matrices.", "quantifier": "All dimensions, gradients and Hessians, all losses, all behaviours of the minimiser and of the refits.", "why_tests_cant": "Tests do not switch the option on; that logging cannot change a result is a statement about all runs.", "anchors": ["rabbit/fitter.py:2248-2258", "rabbit/tfhelpers.py:77-95", "rabbit/scipyhelpers.py:51-55", "rabbit/impacts/nonprofiled_impacts.py:66-82"]}
{"id": "C114", "title": "The diagnostic of the bin-by-bin nuisances vanishes where their profile is right", "statement": "With --diagnostics the distance to the minimum with respect to the bin-by-bin nuisances is logged after the fit. The gradient and Hessian used are derivatives of the loss. With one nuisance per bin the gradient of every nuisance with usable statistics vanishes at its profiled value unless the value is at the edge of its range, the Hessian is positive, so the logged value is zero; this includes masked channels. With one nuisance per process and bin, of normal type, the value is zero whenever the profile is defined, which in chi-square fits it always is, and the profiled values are the only ones with vanishing gradient. In general the value is never negative and vanishes exactly where the gradient does.", "quantifier": "All lists of bins, processes, data, centres, types of nuisance (Gamma, normal multiplicative, normal additive), Poisson and chi-square likelihoods, thresholds on the statistics, both back ends.", "why_tests_cant": "Tests do not compute the value; that it vanishes is a statement about all bins.", "anchors": ["rabbit/fitter.py:2216-2234", "bin/rabbit_fit.py:592-600", "rabbit/bbstat/bbstat.py:499-840"]}
{"id": "C115", "title": "The part of the uncertainty of predictions due to bin-by-bin nuisances follows from the curvature of the likelihood", "statement": "The uncertainty of predicted histograms has a part from the bin-by-bin nuisances, the derivatives of the prediction contracted with the inverse curvature of the loss with respect to the nuisances. The matrix of second derivatives has the stated entries. The code replaces it by the gradient of the summed gradient, i.e. by column sums. With one nuisance per bin, without profiling, and in covariance fits, where the full matrix is used, the contribution is exact, masked entries included. With several nuisances in a bin (full mode) and profiling it is not: for the yield of a bin both values are given in closed form, the computed one is never larger than the correct one and agrees exactly when the ratios of slope and constraint curvature are the same for all processes; for the yield of a single process it can be too small by any factor.", "quantifier": "All numbers of bins and nuisances, slopes, curvatures of the constraints, masks, derivatives of the prediction, Poisson and chi-square likelihoods, values of the nuisances.", "why_tests_cant": "Tests check that the histograms are written; a variance that is too small by some per cent is not noticed, and the closed forms hold for all inputs.", "anchors": ["rabbit/fitter.py:1343-1370", "rabbit/fitter.py:1479-1504", "rabbit/bbstat/bbstat.py:837-905"]}
{"id": "C116", "title": "Clipping while merging raises templates to the threshold and changes nothing else", "statement": "With --clipTensors thresholds are given for input files. The last threshold given for a file counts, an odd number of arguments or a threshold that is not a number stops the script before anything is read, thresholds for other names are ignored. The calls made for a file are those without clipping with the values and variances of nominal templates and the values of variations replaced by the larger of themselves and the threshold; data, names, groups and errors are unchanged. Logarithmic variations never grow or change sign, are unchanged where both templates are above the threshold and vanish where both are below; the sum of a template grows by at most the threshold per bin.", "quantifier": "All argument lists, lists of input files, workspaces, renamings, thresholds and templates.", "why_tests_cant": "Tests do not run the script; what happens to each bin of each template is a statement about all values.", "anchors": ["bin/merge_inputs.py:13-18", "bin/merge_inputs.py:117-123", "bin/merge_inputs.py:152-157"]}
{"id": "C117", "title": "Nuisances act on the yields they belong to, and the yields of single processes exist where they are used", "statement": "The yields of the single processes of a bin are only computed if a caller asks for them or the nuisances need them. The test for the latter is true exactly where the code would stop without them, so no access fails. The total does not depend on whether the yields of processes are asked for, and these add up to it. With one nuisance per process each yield is scaled or shifted by its own nuisance; with one per bin processes without uncertainty are unchanged and the others together are scaled by, or grow by, what the nuisance says. If all processes have an uncertainty the result is the one for merged variances. For additive nuisances this needs a positive yield.", "quantifier": "All types of nuisance, configurations, masks, values of nuisances and yields of any number of processes.", "why_tests_cant": "Tests compare fits for a few inputs; the branch taken depends on the input and on the caller.", "anchors": ["rabbit/bbstat/bbstat.py:423-435", "rabbit/bbstat/bbstat.py:841-911", "rabbit/fitter.py:1796-1813"]}
