{
 "C01": {
  "status": "proved",
  "note": "Exact closed form of the shares for every n and number of processes."
 },
 "C02": {
  "status": "proved",
  "note": "Round trip for every size; compute_y_parallel is refuted without mpi4py when y is given (comm is None)."
 },
 "C03": {
  "status": "proved",
  "note": "Values equal to the serial evaluation, each point evaluated once, for every number of processes."
 },
 "C29": {
  "status": "partial",
  "note": "Every sequence of additions one by one, or with a bulk addition first, with means that are numbers and acquisitions of numbers that are numbers. False of the code for bulk additions to a pool that holds points and for acquisitions that are NaN: refuted."
 },
 "C30": {
  "status": "proved",
  "note": "Every sequence of calls in every mode."
 },
 "C31": {
  "status": "proved",
  "note": "Every sequence of additions one by one, or with a bulk addition first, with means that are numbers; exact values when conditioning never increases the acquisition (without it they are the running minimum). C31_after_reset: once reset_cache has been called (as NORA does after each ranking), add_one raises AttributeError for a point that ranks between those of the pool."
 },
 "C32": {
  "status": "proved",
  "note": "The reranking loop and the calls end without error for every pool reached."
 },
 "C33": {
  "status": "partial",
  "note": "Every pool reached by additions one by one, or with a bulk addition first; refuted for a later bulk addition. The len of a compact copy is one too small (refuted)."
 },
 "C34": {
  "status": "proved",
  "note": "Every batch of candidates whose means are numbers, and size; greedy choice at each slot, nothing better left over, sorted."
 },
 "C35": {
  "status": "partial",
  "note": "Proved for every single addition to every reachable pool (C35_add_one_drops_no_better_point). The full statement is false of the code: bulk on a non-empty pool and batches one by one are refuted by witnesses."
 },
 "C04": {
  "status": "proved",
  "note": "Every box, point and likelihood; needs a prior of finite volume. A zero-width dimension gives +inf (C04_zero_width_refuted). Signatures: one parameter by position per dimension (C04_by_position); parameters that need their name are counted but each evaluation raises (C04_keyword_only_refuted); *args and extra parameters with defaults are refused (C04_refused_refuted)."
 },
 "C05": {
  "status": "partial",
  "note": "Proved for every dimension >= 2 and distinct names. The full statement is false of the code: refuted for every likelihood in one dimension, for repeated names and for keyword-only parameters."
 },
 "C06": {
  "status": "proved",
  "note": "Every box and set of points, with NaN and infinities; without check_shape, broadcasting accepts a point of another dimension (C06_no_shape_check_refuted; exactly when: C06_broadcast)."
 },
 "C07": {
  "status": "partial",
  "note": "Proved: training-set test exact, every repetition rejected, first occurrence kept, exact in one dimension, and what a wrong rejection looks like. The exactness claim is refuted from two dimensions on."
 },
 "C08": {
  "status": "proved",
  "note": "Every prior, finite samples, factor >= 1; samples all outside the prior give an inverted interval (refuted witness)."
 },
 "C09": {
  "status": "proved",
  "note": "Every weight array and companions; exact error condition."
 },
 "C10": {
  "status": "proved",
  "note": "Every string and letter, for any float parser, power and target type."
 },
 "C40": {
  "status": "proved",
  "note": "Characterisation of the verdict for every list of criteria; the accepted policy names; exceptions other than ConvergenceCheckError end the run (C40_other_errors_propagate)."
 },
 "C41": {
  "status": "proved",
  "note": "Every number of processes and combination of documented failures. An exception of another type in some processes only leaves the others waiting (C41_other_exceptions_refuted)."
 },
 "C42": {
  "status": "proved",
  "note": "Every sequence of batches starting with a non-empty one (an empty first batch raises IndexError: C42_empty_first_batch_refuted)."
 },
 "C43": {
  "status": "partial",
  "note": "False as documented: n_correct correct predictions are not enough (C43_n_correct_refuted); one more is (C43_one_more)."
 },
 "C44": {
  "status": "partial",
  "note": "Proved in full for GaussianKL over every sequence of calls. False of GaussianKLTrain at its first call (C44_gaussian_kl_train_refuted); C44_train_partial says what holds of the criteria that compare with the training set. The mean and covariance kept for the next comparison (C44_train_kept)."
 },
 "C45": {
  "status": "proved",
  "note": "In any list of criteria and any history."
 },
 "C67": {
  "status": "proved",
  "note": ""
 },
 "C68": {
  "status": "partial",
  "note": "False as documented (C68_largest_difference_refuted): the value is the difference of the point with the largest ratio of difference to tolerance (C68_worst_ratio)."
 },
 "C11": {
  "status": "proved",
  "note": "Round trip and image [0,1] for all boxes of positive width; zero-width boxes are accepted and break it (C11_zero_width_refuted); reversed boxes are rejected, by a TypeError."
 },
 "C12": {
  "status": "proved",
  "note": "All data sets with at least two different finite values; with no spread the transform divides by zero (C12_no_spread_refuted)."
 },
 "C13": {
  "status": "proved",
  "note": "Any stages and any length; fit, transforms, bounds and scales."
 },
 "C14": {
  "status": "partial",
  "note": "Refuted: a fit that fails in the decomposition leaves mean and covariance replaced; learning raises RuntimeError unless there are as many points as dimensions, and then the covariance that is learnt has the eigenvalue 0 for every decomposition, by whose root points are divided (C14_learnt_refuted, over the real numbers); one point in one dimension leaves a transform that raises (C14_one_point_refuted). C14_fit_partial: the cases in which it holds."
 },
 "C69": {
  "status": "proved",
  "note": "C69_fixed_whitening: exact linear algebra on abstract matrices that are inverse to each other. C69_eigenvectors: over the real numbers, with the matrices of the code, if eigh returns an orthogonal eigen-decomposition of the covariance with positive eigenvalues: round trip both ways, and the norm of the transformed point is the Mahalanobis distance to the mean. C69_bounds: the transformed bounds are the smallest box around the transforms of all points in the bounds. C69_not_learning: without learning a covariance is needed, and later fits change nothing."
 },
 "C15": {
  "status": "partial",
  "note": "Stored labels, predictions and the all-infinite case are proved for every fit. The claim for histories is false: after a fit with only finite points, a fit with only -inf points keeps predicting finite (C15_only_minus_inf_refuted). It is proved for growing training sets, which is how the GPR calls the classifier."
 },
 "C16": {
  "status": "partial",
  "note": "The log is proved for every history of returning calls. Alignment needs a classifier: without one, points appended with no values are stored (C16_misaligned_refuted). The reported number is proved without a classifier and when every append refits the classifier; appends with fit_classifier=False are not counted (C16_number_reported_refuted)."
 },
 "C17": {
  "status": "partial",
  "note": "Proved for appends that update the model and for every history from a new regressor. Hypotheses: no NaN; for histories also no +inf and a non-negative threshold. With a NaN among the values the training set never changes again (C17_nan_refuted)."
 },
 "C18": {
  "status": "proved",
  "note": "Every history from a new regressor with a classifier. Hypotheses: values finite or -inf, at least one finite, non-negative threshold; NaN is excluded (see C17_nan_refuted)."
 },
 "C19": {
  "status": "partial",
  "note": "Invalid flags, only one of X and y, and invalid noise: object unchanged. Wrong dimension: only the last-appended count changes. Refuted for X and y of different lengths: both are stored before the call raises, and with a classifier no later well-formed append returns."
 },
 "C20": {
  "status": "partial",
  "note": "Proved from a state whose levels are already per point and aligned. Refuted when individual levels are given while a single level is set: the call raises, or returns with too many levels."
 },
 "C21": {
  "status": "partial",
  "note": "append(fit=True) against append(fit=False) then append(None, None, fit=True): same object up to the last-appended counts, with a classifier, preprocessors that forget earlier fits, and a new point within the threshold. Refuted for fit_gpr_hyperparameters(), without a classifier, with no new point within the threshold, and with noise per point."
 },
 "C22": {
  "status": "partial",
  "note": "Proved for histories of appends only, from a new regressor with a classifier, that all refit preprocessors and classifier; values finite or -inf, preprocessors that forget earlier fits. Refuted after fit_gpr_hyperparameters(), without a classifier, for mixed appends with and without refits, and for the noise variances."
 },
 "C26": {
  "status": "partial",
  "note": "Proved for batches of at least one point. Refuted after a call without points, which returns all points; last_appended_finite returns the whole training set if no new point was accepted."
 },
 "C25": {
  "status": "partial",
  "note": "Serial fit (C25_best_restart) and parallel fit over all processes (C25_best_process) proved for every number of runs and processes, provided no run ends with NaN (the parallel theorem also needs accepted new points, since otherwise nothing is fitted, and at least one restart). A run that ends with NaN is the one kept (C25_nan_refuted), so the statement as given is false."
 },
 "C23": {
  "status": "partial",
  "note": "For X-preprocessors that work row by row: one mean and standard deviation per query, the same as for the query alone; gradients are given for a single query only, one row each, without any change of mean and standard deviation (C23_gradients, C23_gradients_refused; given a kernel whose gradient exists, see C66); -inf if classified infinite or outside the trust region, and finite otherwise if training values, clip_factor and the GP mean are finite; means (not NaN) below the ceiling if training values and clip_factor are finite; standard deviations non-negative, and 0 if classified infinite, if variances are not NaN and root and inverse scale keep signs. Refuted: outside the trust region the standard deviation is not 0 (C23_trust_std_refuted); predict_is_finite without a classifier returns one entry per training point (C23_predict_is_finite_refuted)."
 },
 "C24": {
  "status": "partial",
  "note": "Same predictions for the default clip_factor if there is no trust region or it is ignored; same predict_std always; independence for every later history of both objects if fitting does not change the preprocessors. Refuted: trust region and clip_factor are not copied; preprocessors are shared, so refitting one object changes predictions of the other. Random numbers: with an integer seed each fit of either object draws the same starting points whatever happens to the other; a generator is shared, so a fit of the copy changes the starting points of the next fit of the original (refuted), unless the copies draw nothing (as in the acquisition); numbers drawn by the original and all copies are all different, but one that was saved and loaded repeats them."
 },
 "C70": {
  "status": "partial",
  "note": "Refuted for every new regressor: predict always raises (C70_prior_refuted); with a classifier a ValueError, without one a TypeError, also after points were added without a fit (C70_errors, C70_unfitted)."
 },
 "C71": {
  "status": "partial",
  "note": "For an affine y-preprocessor with positive scale, finite classifier thresholds and finite values: the reported threshold is too low by the offset (C71_offset), right without offset (C71_no_offset), wrong for some value with any other offset (C71_threshold_refuted)."
 },
 "C72": {
  "status": "partial",
  "note": "Over the real numbers, every kernel expression, any number of points and dimensions, at points where gradient_x returns and the kernel is differentiable: in transformed coordinates the reported mean gradient is the gradient of the predicted mean before clipping (C72_mean_gradient). With Normalize_bounds the true gradient below the clipping is the reported one divided by the prior widths (C72_true_mean_gradient), so it is right exactly in components that are 0 or along which the width is 1 (C72_mean_right_iff). For kernels of constant variance and a standard deviation above 1e-8, the true gradient of the standard deviation is the reported one divided by the y scale and the widths (C72_true_std_gradient, C72_std_right_iff). Refuted: prior width 2, y scale 2, and DotProduct, whose gradient is reported as 0. With Whitening the true gradients are the transpose of the whitening matrix applied to the reported ones (C72_whitened_mean, C72_whitened_std), so they are right exactly if that product is the reported row; refuted in C72_whitening_refuted. On the path through predict (classifier, trust region): C72_mean_gradient_partial and the older refutations."
 },
 "C73": {
  "status": "partial",
  "note": "If preprocessors keep lengths and do not raise, the one of y is affine with positive slope, and SVC (both labels), decomposition, optimiser and trust region (at least one point, finite values) do not raise: a non-empty batch of matching lengths without NaN or +inf (finite if there is no classifier) is accepted if it comes with a fit (True, 'simple' or arguments) or hyperparameters exist; noise levels may be one for all or one per point from the start; updates without data with one level for all, once a value is finite; any sequence of such calls and fits (C73_history). Exact arithmetic: with rounding the assertion on the labels can fail. Refuted: a batch without fit after a fit that only had -inf values (C73_after_infinite_refuted); an update without data when there are levels per point (C73_levels_refit_refuted)."
 },
 "C66": {
  "status": "partial",
  "note": "Over the real numbers, for any kernel expression: every row that gradient_x returns is the gradient, at points where the expression is built from differentiable pieces (regular: nonzero length scales, Matern 1/2 away from the training point, powers with natural exponent >= 1 or positive base; other values of nu excluded). A row exists if no product, power or Matern 1/2 is inside a product. Refuted: products of products (unless constant), powers inside products and Matern 1/2 inside products give None, i.e. an exception or a wrong shape; Matern 1/2 returns numbers at its kink. The row also gives the derivative along every line through the point (C66_direction)."
 },
 "C63": {
  "status": "proved",
  "note": "For a non-negative standard deviation and noise level (given, one number, or the average of several): -inf iff the mean is not a real number or std <= noise; the formula anywhere else; strictly increasing in mean (zeta > 0) and std where it is not -inf. The automatic zeta is in (0,1] and decreases with the dimension. Real arithmetic."
 },
 "C64": {
  "status": "partial",
  "note": "For a surrogate whose own gradients are right, one noise level n with 0 <= n < std: the reported row is the gradient iff n times every component of the gradient of std is 0 (C64_right_iff); so right without noise (C64_noiseless), refuted with noise (C64_noise_refuted), and with sigma_n given the call always raises (C64_sigma_n_refuted); with noise levels per training point it raises unless they are as many as the parameters, and then each component uses the noise of another training point (C64_noises_refuted)."
 },
 "C65": {
  "status": "proved",
  "note": "Any tree of sums, products, powers and constants over operands whose gradients are right at the point, where no part is infinite; powers with natural exponent >= 1 or of positive values. C65_exists: a gradient is returned if all operands have one."
 },
 "C74": {
  "status": "partial",
  "note": "Mu, Std, ExponentialMu, ExponentialStd: gradients proved for any differentiable surrogate. Refuted: Mu and Std ignore a; the gradient of ExpectedImprovement is right only where the gradient of the mean is 0 (shown where an improvement is predicted). NonlinearLogExp is C108."
 },
 "C46": {
  "status": "proved",
  "note": "For every run from a surrogate reached by any history of calls, fresh or resumed, whether it returns or raises; assumes that the acquisition returns at most n_points_per_acq points and that preprocessing keeps the number of values. The bound max_total + n_points_per_acq - 1 holds unless the initial training alone exceeds it (bounded in C50; C46_fresh gives the closed form for one process)."
 },
 "C47": {
  "status": "partial",
  "note": "False of the code: C47_last_batch_refuted and C47_initial_refuted are runs that evaluate 4 points with max_total = 3. What does hold is C46."
 },
 "C48": {
  "status": "proved",
  "note": "Number of passes bounded by a function of the options (C48_passes); allowing more passes than that makes no difference (C48_terminates). For every stream of proposals, values, criteria outcomes and exceptions, from any surrogate reached by calls; the resampling counter starts at 0, as the constructor sets it."
 },
 "C49": {
  "status": "proved",
  "note": "After a run that returned. (After one that raised, run starts again from the initial training.)"
 },
 "C50": {
  "status": "partial",
  "note": "For a fresh surrogate and values that are not NaN, returning implies at least n_initial accepted points, and the training set is exactly what was evaluated (C50_enough); evaluations bounded in terms of max_initial, n_initial and the number of processes, from any surrogate (C50_evaluations); RuntimeError if all values are infinite (C50_all_infinite). The bound max_initial itself is exceeded (C50_max_initial_refuted, C50_max_initial_processes_refuted). With a pre-trained surrogate fewer than n_initial points may be accepted (C50_pretrained_refuted), its points are appended a second time (C50_duplicates_refuted), and with enough of them and little output there is a ZeroDivisionError (C50_pretrained_quiet_refuted)."
 },
 "C51": {
  "status": "proved",
  "note": "Schedule and split of the restarts (C51_schedule), data appended in every case (C51_data), hyperparameters untouched if no refit is due (C51_kept). For every process number >= 1."
 },
 "C52": {
  "status": "proved",
  "note": "Consistency of every accepted set of options (C52_consistent), relation to what was asked for (C52_values), defaults accepted for every dimension and process number (C52_defaults). Infinite values, which the documentation suggests for 'never', raise OverflowError (C52_infinite_refuted)."
 },
 "C53": {
  "status": "proved",
  "note": "C53_converged: criteria and diagnosis both passed in the last pass, and nothing came after; C53_criteria spells out what the criteria require; C53_not_converged: otherwise the budget was reached or it gave up."
 },
 "C54": {
  "status": "partial",
  "note": "False of the code as stated. Proved: in any state, a returning call that is given a true value leaves the point (or the sample) with both of its true values, and the weights that were given, one per point; a first call leaves nothing wrong even if it raises. Refuted: a second point without values keeps the old values; so does a call that raises because both values are given; a second sample without weights keeps the old weights, of the wrong length."
 },
 "C55": {
  "status": "partial",
  "note": "False of the code as stated. Proved: nothing stored changes with copy=True, or as_getdist, or without as_pandas. Refuted: as_pandas with copy=False removes the points from the stored sample, and the next table cannot be made (KeyError)."
 },
 "C56": {
  "status": "proved",
  "note": "The log-prior must be finite at the points for the sum (it is within the bounds). For Cobaya, the log-posterior is the prediction of the surrogate; the samplers themselves are not modelled."
 },
 "C75": {
  "status": "partial",
  "note": "False of the code as stated. Proved for distinct parameter names none of which is w, X, logpost, logprior or loglike. Refuted: a parameter called w replaces the weights."
 },
 "C76": {
  "status": "partial",
  "note": "False of the code as stated. Proved for all integers: a level is returned, monotone. Refuted: non-integers between 1 and 3 raise ValueError."
 },
 "C77": {
  "status": "proved",
  "note": "For any training set without NaN and any argsort; distinct processes get distinct points if the training points are distinct."
 },
 "C78": {
  "status": "partial",
  "note": "False of the code as stated. Proved for verbosity >= 2, and the precedence. Refuted: with a lower verbosity whatever there is, valid or not, is handed over."
 },
 "C79": {
  "status": "partial",
  "note": "Proved for bounds given as an array or taken from the surrogate. Refuted for bounds given as a list of pairs, the documented form: it never returns."
 },
 "C80": {
  "status": "proved",
  "note": "Which packages can be imported is arbitrary."
 },
 "C81": {
  "status": "partial",
  "note": "False of the code as stated. Proved when parameter names are given; refuted without: NameError (X_mc is not defined). The path of the file is not modelled."
 },
 "C82": {
  "status": "partial",
  "note": "False of the code as stated. Proved for paths and GetDist samples. Refuted: a Cobaya collection always makes it raise (the class is never imported, and the error is raised also after converting)."
 },
 "C83": {
  "status": "partial",
  "note": "Proved for stored samples with at least one point and given bounds: log-densities appear if they vary by more than 1e-8. Refuted: with the default bounds=None it never returns. GetDist itself is not modelled."
 },
 "C84": {
  "status": "partial",
  "note": "Proved: UltraNest's transform maps the unit cube into the bounds, corners to corners; nessai's prior is right for a single point. Refuted for batches: one point inside makes the density of all nonzero."
 },
 "C85": {
  "status": "partial",
  "note": "False of the code as stated. Proved: which files PolyChord and nessai delete, and how paths are split. Refuted: PolyChord deletes other runs whose root extends this one by an underscore; UltraNest ignores the given folder and deletes the last one; both nessai and UltraNest delete the whole parent folder of a root."
 },
 "C86": {
  "status": "partial",
  "note": "False of the code as stated. Proved for PolyChord, UltraNest and nessai: a returning call sets exactly the given options and leaves all others alone (C86_sets), and it returns if the conversions do (C86_returns). Refuted: a raising call leaves earlier options set (C86_error_refuted)."
 },
 "C87": {
  "status": "partial",
  "note": "Proved for nessai and for PolyChord with at least two samples. Refuted for a single line of output: a vector and two numbers instead of arrays of one."
 },
 "C57": {
  "status": "partial",
  "note": "Any uninterrupted save_checkpoint with the truth given, over any previous folder content, reports a complete checkpoint and reads back as the saved objects (C57_roundtrip), and so does any history of successful Runner.save_checkpoint calls, where the truth is written only by the first (C57_history; the path may hold anything before). Refuted after a failure: if the first save fails after opening the truth file, the Runner never rewrites it, so later successful saves leave a checkpoint reported complete that cannot be read without passing a truth (C57_failed_save_refuted). Pickling itself is taken as faithful, given that the stored dictionary of the truth is readable (get_truth hypothesis)."
 },
 "C58": {
  "status": "partial",
  "note": "After a crash at any step the files are a prefix of new ones, a suffix of old ones and at most one cut off (C58_prefix); a crash in the very first save is always detected: incomplete, unreadable, or all saved (C58_first). Refuted over an existing checkpoint: check_checkpoint always reports complete (C58_undetected_refuted) and a crash between files reads, without error, as the new surrogate with the old everything else (C58_mixed_refuted)."
 },
 "C59": {
  "status": "partial",
  "note": "check_checkpoint reports exactly the files that are there (C59_reported). Whatever read_checkpoint returns is what the files hold, with none missing (C59_complete). The documented None for missing files is refuted: any missing file (the truth only if none was passed) makes it raise (C59_missing_refuted)."
 },
 "C60": {
  "status": "partial",
  "note": "Proved: start-up never alters the files of an existing folder (C60_untouched), refuses a path without a valid instruction (C60_refused), 'resume' on a complete checkpoint uses what is read or raises (C60_resume, C60_loaded), 'overwrite' and incomplete checkpoints start afresh independently of the files (C60_fresh), as do missing folders and no path (C60_no_folder, C60_no_path). Refuted: resuming without passing the likelihood always raises TypeError (C60_no_loglike_refuted)."
 },
 "C88": {
  "status": "partial",
  "note": "Proved for passed objects that are truthy (C88_loaded) and for surrogates given as objects (C88_object). Refuted for falsy ones: an empty options dictionary is replaced by the stored one (C88_empty_refuted)."
 },
 "C62": {
  "status": "proved",
  "note": "For every list of iterations (what is recorded in each) the table gets one row per iteration after the existing ones, holding in each column the last value recorded in that iteration or NaN (C62_rows); every history that does not raise on a new table is of this form (C62_histories); from any table with rows nothing raises and only the last row ever changes (C62_frozen). Cells are numbers; the list of criteria is one opaque value."
 },
 "C89": {
  "status": "partial",
  "note": "Proved for two or more processes all having a row: agreement, largest/sum/first with missing values ignored, earlier rows and the numbers of training points unchanged (C89_sync), single recorder (C89_single), one process (C89_alone). Refuted: synchronising again adds the counts again (C89_idempotent_refuted)."
 },
 "C90": {
  "status": "partial",
  "note": "Totals are right if no iteration lacks a value, but for the last convergence time (C90_totals). Refuted otherwise: one iteration without truth evaluations or fit, as a re-sampling one, makes the total NaN (C90_gap_refuted)."
 },
 "C91": {
  "status": "proved",
  "note": "For all sequences of blocks with non-decreasing counters (C91_counts), exactly all if consecutive (C91_exact); a surrogate given twice is counted twice (C91_twice)."
 },
 "C61": {
  "status": "partial",
  "note": "For all nestings, draws and histories of updates: within the bounds set last, if those are finite and ordered and the training points finite (C61_in_bounds, C61_histories, C61_update_bounds); samples of distributions within any bounds and without errors (C61_sampled); the mean comes first exactly if inside, on the main process (C61_mean); PartialProposer takes the uniform proposal exactly if the coin is at most the fraction (C61_fraction). Refuted: PartialProposer does not align the bounds of the proposer it is given (C61_mismatch_refuted), and UniformProposer returns NaN for an infinite bound (C61_infinite_refuted). A proposal from centroids is between the values of its training points (C61_centroid)."
 },
 "C92": {
  "status": "partial",
  "note": "If surrogate and then bounds are updated and at least d+1 points are inside, proposals depend on no other point (C92_only_inside); too few points raise (C92_too_few). Refuted for other orders: a new proposer updated with a surrogate only raises TypeError (C92_untrained_refuted), others propose from the points of the previous surrogate (C92_stale_refuted)."
 },
 "C36": {
  "status": "partial",
  "note": "For a clean engine, any nonzero number of processes: exactly n_points are returned, each lie being the prediction of the copy with the previous points appended (C36_points, kriging believer); results do not depend on the number of processes (C36_processes); under an optimiser that does not end worse than it starts, an invertible X preprocessor and an acquisition function below +infinity, the value returned is that of the point and at least that of the last training point inside of the bounds and of every proposal tried (C36_best); inside of the bounds if optimiser and proposer respect them (C36_in_bounds); it returns (C36_returns) and leaves no captured objective (C36_clean). The original regressor is untouched by lies appended to the copy (C36_untouched). Refuted: zero restarts raise IndexError, though documented as one run (C36_zero_restarts_refuted); the documented default bounds=None raises (C36_default_bounds_refuted); a NaN optimum is chosen before finite ones (C36_nan_refuted); after an exception in the optimiser the next call optimises the old surrogate (C36_stale_refuted); only processes with a restart can keep it (C36_stale_only)."
 },
 "C37": {
  "status": "proved",
  "note": "Every history of calls that return; a call whose sampler raises changes nothing (C37_sampler_raises), so the schedule is that of the calls that return."
 },
 "C38": {
  "status": "partial",
  "note": "Proved for samples whose new weights are finite, non-negative and not all zero, any number of processes, and for repeated re-weighting. False of the code for bounds without a point of the sample (all calls raise from then on) and for points predicted infinite before and after (all weights NaN): refuted."
 },
 "C39": {
  "status": "partial",
  "note": "Proved for samples in which no point's coordinates are all among those of another (told_apart). Refuted otherwise: (1,2), (2,1)."
 },
 "C93": {
  "status": "proved",
  "note": "Every state, surrogate and number of processes, for calls that return."
 },
 "C94": {
  "status": "proved",
  "note": "Samples in which points are told apart by their sets of coordinates, surrogates that predict numbers and whose acquisition does not grow by conditioning and is not +inf."
 },
 "C95": {
  "status": "partial",
  "note": "The order of points seen by UltraNest is the surrogate's if no finite prediction is below the replacement of -inf (-1e-300); refuted otherwise, and minus_inf_value is not restored if a prediction raises. PolyChord and Nessai get the prediction by definition of the model."
 },
 "C27": {
  "status": "proved",
  "note": "Over the real numbers (MLinAlg: Cholesky factor, triangular solves), for every symmetric kernel, training set, noise and point for which the model can be computed: at a training point the mean is the value minus noise times the dual coefficient; with zero noise at that point, predict's mean (affine y-preprocessor, clipping factor at least 1) is exactly the value and its standard deviation is 0. C27_kernels: for all kernels of MKernel. Rounding is not modelled."
 },
 "C28": {
  "status": "proved",
  "note": "Over the real numbers, for every symmetric kernel: the variance is the smallest expected squared error of a linear predictor and the mean is that predictor (C28_best_predictor); training points added anywhere in any order, with any values and noise, never increase variance nor standard deviation, whenever both models can be computed (C28_more_points, C28_appended, C28_kernels); for positive kernels and noise at least 0 the variance is between 0 and the prior's (C28_variance), and with positive noise the model can always be computed (C28_exists). Fixed hyperparameters and preprocessors; rounding is not modelled."
 },
 "C96": {
  "status": "proved",
  "note": "Over the real numbers, for every symmetric kernel, training set, appended points and noise, whenever both models can be computed: values equal to the predicted mean (before clipping) leave the mean unchanged at every point. C96_kernels: for all kernels of MKernel."
 },
 "C97": {
  "status": "partial",
  "note": "True for diagonal covariance matrices (C97_diagonal, all dimensions). Refuted for correlated ones: the code multiplies by the Cholesky factor of the correlation matrix instead of solving with it (C97_correlated_refuted: covariance [[1,1/2],[1/2,1]], point (1,0): sqrt(5/4) instead of sqrt(4/3))."
 },
 "C98": {
  "status": "partial",
  "note": "Proved for RBF, Matern (nu 1/2, 3/2, 5/2), RationalQuadratic, ConstantKernel (value at least 0), WhiteKernel (noise at least 0), DotProduct, and ExpSineSquared in one dimension, and all their sums, products and natural powers, in every dimension, isotropic or not; also for all real powers at least 0 of products and powers of RBF, Matern 1/2, RationalQuadratic, ExpSineSquared in one dimension and positive constants: the quadratic form is never negative (C98_positive); with positive noise a surrogate can be computed for all training sets and its variances lie between 0 and the prior's (C98_surrogate_exists). C98_with_noise is the same for the matrix that has the noise of a WhiteKernel anywhere in the kernel on its diagonal. False for ExpSineSquared in two dimensions (C98_periodic_refuted) and for the square root of DotProduct (C98_root_refuted). Not covered: Matern with other nu, and real powers of Matern 3/2 and 5/2 and of sums."
 },
 "C99": {
  "status": "proved",
  "note": "The sampler asked for is used or an error raised (C99_default, C99_choice, C99_not_a_name: anything but a string is an AttributeError); live points are nlive_per_training per training point, at most the cap (C99_live), monotone (C99_monotone); the other settings of each sampler, and that setting them returns if max_ncalls is valid (C99_others). nlive_per_training and nprior_per_nlive are integers. nessai is never told max_ncalls (part of C99_others)."
 },
 "C100": {
  "status": "partial",
  "note": "False: if one process raises where others do not, the others wait for ever: in the truth (C100_truth_raises_refuted), the optimiser of batch acquisition (C100_batch_raises_refuted), the fit (C100_fit_raises_refuted), NORA when it re-weights a sample without a point within the bounds (C100_nora_bounds_refuted), a criterion that communicates (C100_check_hangs_refuted), the mean of GaussianKL (C100_gaussian_kl_refuted), initial training, whenever it fails (C100_init_fails_refuted); and at the end of every run of several processes that stops at the maximum number of evaluations without having converged, unless the sampler raises at once (C100_end_refuted). What holds: predictions, truth, batches, NORA, fits, initial training, progress tables, verdict, passes and whole runs end in all processes with the results of the lockstep models whenever those succeed (C100_predictions, _truth, _batch, _nora, _fit, _init, _check, _verdict, _progress, _pass, _run), given that the acquisition engine, the callback, the criteria, the Monte Carlo sampler and the checkpoint do not fail ([harmless]). What processes do within the samplers, and the scattering of random seeds, are not modelled."
 },
 "C101": {
  "status": "partial",
  "note": "C101_history: after any history of fits (returning or raising) with an optimiser that stays in its box, all hyperparameters are inside the bounds given and fixed ones as given; hypotheses: kernel of listable classes (usable), positive bounds, one row or a row per component, initial values inside. C101_fit: a returning fit leaves them inside whatever they were before. Refuted: kernels with RationalQuadratic, ExpSineSquared or DotProduct can never be fitted (TypeError), nor one length scale with several rows of bounds."
 },
 "C102": {
  "status": "partial",
  "note": "Set/get, accepted lengths, fixed hyperparameters (also if it raises), last vector wins, all for every kernel tree with non-empty length scales (C102_length needs usable kernels and matching bounds, C102_get_set positive values). Refuted: a vector that is too long raises after it has changed the kernel."
 },
 "C103": {
  "status": "partial",
  "note": "Bounds are width/1000 and 100 width in each direction, whatever the current values, and stay so. Refuted: with one length scale the first width is used, not the largest; documented factors are different; a dynamic ConstantKernel raises TypeError."
 },
 "C104": {
  "status": "partial",
  "note": "A fit that returns, with points appended since the last update, leaves the exact posterior of the new kernel (interpolation at noiseless points). Refuted: a fit without new points returns with the old solution and the new kernel (mean 4 instead of 1 at a training point); likewise if the optimiser raises after evaluating."
 },
 "C105": {
  "status": "partial",
  "note": "Reported scales are within the requested ranges for every dimension and bounded optimiser if there is an X-preprocessor or more than one dimension. Refuted: in one dimension without X-preprocessor, scales raises TypeError."
 },
 "C106": {
  "status": "partial",
  "note": "Inside of the bounds asked for if there is no preprocessor (C106_plain); with Normalize_bounds inside of the prior, for any bounds asked for that lie in it (C106_prior). Any number of processes, restarts and points; optimiser and proposer stay in their box, results finite. Refuted: with Normalize_bounds, the preprocessor that the runner installs, transform_bounds answers the unit box for any bounds, so that any point of the prior outside of the trust region is returned by an optimiser that finds it better than the last training point (C106_trust_refuted); with Whitening also points outside of the prior (C106_whitening_refuted)."
 },
 "C107": {
  "status": "partial",
  "note": "Stationary kernel, Normalize_bounds, LogExp, one noise level, trained regressor, mean below the clipping ceiling, std above the noise level and not numerically 0. With the same preprocessor in regressor and acquisition (as Runner builds them) the gradient is right iff in each direction the reported derivative of the std is 0 or s(sd+n)=sd, s being the scale of the y-preprocessor and n the noise level: right without y-preprocessor and noise, wrong (scale_refuted, all s>1) with a y-preprocessor, as the factor s is applied twice. With another preprocessor in the acquisition (or none, its default) it is right iff the reported component is 0 or the widths agree (no_preprocessor_refuted, all widths other than 1)."
 },
 "C108": {
  "status": "partial",
  "note": "Value, -inf, monotony, above LogExp: proved for every surrogate with non-negative std and noise. Refuted: the documented product orders points otherwise; the gradient, inherited from BaseLogExp, is right without noise exactly in the directions in which the std has derivative 0 (C108_gradient_iff), with noise exactly in those or if the noise level is one particular function of the std (C108_noise_iff), positive and unique for each std (C108_noise_once). One point at a time."
 },
 "C109": {
  "status": "partial",
  "note": "get_set: for composites in which no object occurs twice. set_get (when every free hyperparameter is a positive number), only, length: also with shared objects. leaf_atomic and leaf_free: for functions that are not composites. Refuted: shared objects (get_set), composites changed by a call that raises, theta and n_dims of LogExp without sigma_n (its default), fixed hyperparameters of composites listed as free."
 },
 "C110": {
  "status": "proved",
  "note": "Built-in classes; an integer and a float exponent are written as different. associative_refuted shows that the converse (same values, hence ==) fails."
 },
 "C111": {
  "status": "proved",
  "note": "Over the real numbers: determinants that underflow in many dimensions are not covered. Invariance is proved for diagonal changes of scale with shifts, which is what changes of units are. Undefined for matrices of negative determinant (C111_undefined)."
 },
 "C112": {
  "status": "proved",
  "note": "The theorems also say when the covariance is two-dimensional: not for a single parameter, see C113."
 },
 "C113": {
  "status": "partial",
  "note": "Refuted in two ways. With one parameter np.cov returns a 0-dimensional array which np.linalg.inv refuses: the diagnosis always raises LinAlgError, no one-parameter run ends regularly unless it gives up, and GaussianKLTrain only records NaN. And 0 < credibility excludes perfect agreement. C113_verdict gives what holds for two or more parameters with an engine that has no samples of its own, C113_verdict_nora with one that has. A success of the second test always means a divergence below the dimension, never an infinite or undefined one (C113_divergence)."
 },
 "C114": {
  "status": "partial",
  "note": "C114_at_most, C114_when, C114_weights, C114_unchanged: what holds. Violated by the code: the lower limit for the divergence never applies (C114_floor_refuted); max_reused counts over the whole run, not per sample (C114_each_sample_refuted); with one parameter no check ever succeeds (C114_one_parameter_refuted); a surrogate that is minus infinity at the whole sample ends the run with ZeroDivisionError (C114_infinite_refuted)."
 },
 "C115": {
  "status": "partial",
  "note": "Proved for all inputs: C115_points (exactly the points less than the drop below the best, after the least number of steps of 0.1), C115_best, C115_ends, C115_region. Refuted: C115_one_parameter_refuted (with one parameter a single point is kept and the region has zero width), C115_small_factor_refuted (a factor below 1, which the documentation allows, leaves out the best training point). Not covered: the drop as a function of sigmas is arbitrary here (C116 has its properties)."
 },
 "C116": {
  "status": "proved",
  "note": "Over the real numbers. chi2.cdf, chi2.isf and erfc are any functions that are what scipy documents, stated through integrals of the Gaussian over shells (scipy_ok); C116_scipy constructs such functions. Underflow of erfc (n above 38, where the code warns) is not modelled."
 },
 "C117": {
  "status": "partial",
  "note": "Proved for all inputs: C117_gpr, C117_gpr_name, C117_acquisition, C117_acquisition_name, C117_function_name, C117_function, C117_proposer, C117_criteria, C117_criteria_list, C117_criteria_default, C117_objects, C117_errors (acquisition, acquisition function and criteria raise only ValueError, TypeError or, for empty dictionaries, IndexError). Refuted: C117_options_dropped_refuted (gp_acquisition={'LogExp': {'zeta': 0.1}} is the same as 'LogExp'), C117_other_entries_refuted, C117_none_refuted (documented gpr=None raises), C117_proposer_none_refuted, C117_list_refuted, C117_instance_refuted. What the classes do with their arguments is an arbitrary function."
 },
 "C118": {
  "status": "partial",
  "note": "Proved: C118_dict, C118_name, C118_stored, C118_one. Refuted: C118_default_refuted and C118_empty_refuted (no sampler is stored and list({})[0] raises IndexError; after resuming _mc_options does not exist), C118_run_refuted (for all runs: a run without mc, or resumed, returns only if it gives up looking for new points, and has not converged)."
 },
 "C119": {
  "status": "partial",
  "note": "C119_options is for inputs with exactly one entry of options for the engine asked for, which has no key that itself starts with options_; C119_verbosity. The rest of the claim is false of the code: initialize always raises (C119_initialize_refuted), run and plots raise, tru.pkl is not listed, without output there is no folder, NORA is cited only if it is not used."
 },
 "C120": {
  "status": "partial",
  "note": "Proved for points and bounds given as lists of the same length (C120_slices, C120_all, C120_type_error, C120_negative). Refuted: a non-empty dictionary always raises, since the names of the parameters are taken from the array of values (C120_dict_refuted); longer bounds are accepted and negative indices then get the wrong ones (C120_longer_refuted)."
 },
 "C121": {
  "status": "partial",
  "note": "Proved: dictionaries, lists and samples all give five values per parameter as stated (C121_dict, C121_list, C121_samples), and preparing again changes nothing (C121_again). Refuted: a dictionary without some parameter is changed for the caller (C121_caller_refuted); a parameter missing from samples raises AttributeError instead of the ValueError meant (C121_missing_refuted); without GetDist any reference is silently ignored (C121_getdist_refuted). GetDist's statistics are a parameter."
 },
 "C122": {
  "status": "partial",
  "note": "Proved: numbers (C122_numbers), densities if the largest distance is not an integer (C122_densities), volumes of balls in all dimensions by the recursion in the dimension (C122_volume). Refuted: with density, if the largest distance is an integer, IndexError (C122_integer_refuted); points that are all at the mean get no bin (C122_centre_refuted). The distances are any nonnegative reals. The gamma function is a parameter with its functional equation."
 },
 "C123": {
  "status": "partial",
  "note": "Proved: every training point is added, and the colours cover exactly the values of the finite ones (C123_drawn); which points are drawn for any ranges (C123_points). Refuted: the restriction to the ranges; the test of the ranges (logical_or) holds for all points, so points outside stretch the colours (C123_ranges_refuted). One parameter, where the code's squeeze changes shapes, is not modelled."
 },
 "C124": {
  "status": "partial",
  "note": "Proved: with an integer as seed or none and the regressor made by the runner no number is used twice in any history, any number of processes (C124_fresh), in one process also with a generator of the user's regressor or none (C124_one_process); generators depend on seed and rank only (C124_processes) and have nothing in common for other seeds or ranks (C124_apart), taking numpy's streams of different seed sequences as different. Refuted: a generator as seed in several processes (C124_generator_refuted); an integer random state in one process, where every fit restarts from the same points (C124_integer_refuted); runs resumed in several processes, where the first fit starts from the same points in all (C124_resumed_refuted); runs resumed with the same seed (C124_same_seed_refuted). Draws by the classifier count as draws of the regressor's generator."
 },
 "C125": {
  "status": "partial",
  "note": "Proved: data and budget over any list of sessions (C125_data; acquisition returns at most n_points_per_acq points, one true function), nothing happens without budget (C125_exhausted). Refuted: the counter of iterations starts anew, so sessions shorter than fit_full_every never do a full fit, however many there are (C125_schedule_refuted); a converged run acquires again (C125_converged_refuted). Files are those of a complete save; crashes while saving are C58. Resumed runs that draw the final sample raise, see C118."
 },
 "C126": {
  "status": "partial",
  "note": "In double precision (Flocq), per coordinate. Inside for all points below 1 (C126_inside, C126_monotone); at 1 exactly if rounded distance plus lower bound, rounded, is not above the upper bound (C126_edge), which holds if the distance is exact (C126_edge_exact): bounds from or to zero, symmetric, close, or whole numbers (C126_edge_usual). Not in general: bounds -4 and 0.2 (C126_edge_refuted); the code says it clips to the bounds but does not. Way back and shrink_bounds proved (C126_to_unit, C126_shrink). There and back: C126_round_trip; the upper bound may come back outside (C126_round_trip_refuted)."
 },
 "C127": {
  "status": "partial",
  "note": "Proved in double precision: kept for distances up to 2^34 - 1 (C127_keep, C127_keep_count), not beyond (C127_keep_refuted: distance 1.7476e10); labels agree with a margin of 8 * 2^-53 times the magnitudes (C127_agree). Without margin they need not, and the assertion fails: values 0, -1e9, -1.8e10 with all three to be kept (C127_agree_refuted)."
 },
 "C128": {
  "status": "partial",
  "note": "C128_units: every series of calls of the surrogate with default preprocessors (those that raise included) and all predictions; C128_run: whole runs (initial training, parallel fits, main loop), with an outside world that reacts in any way to the state of the run, in the same way in both units; C128_reacting_runs: such runs are runs of the model; C128_posterior, C128_candidates, C128_counter, C128_acquisition, C128_prediction for the other parts. Arithmetic is exact; the support vector classifier, decompositions and the optimiser are parameters which see only transformed data. Refuted where the code compares with absolute numbers or mixes parameters: C128_ultranest_refuted, C128_nora_refuted, C128_mean_refuted, C128_no_preprocessor_refuted."
 },
 "C129": {
  "status": "proved",
  "note": "C129_exists characterises when the decomposition succeeds; C129_model and C129_predict: exact arithmetic over the reals, any symmetric kernel. C129_history: histories of append_to_data and fit_gpr_hyperparameters, scalar noise, values without NaN; the classifier's SVC, the decomposition, the optimiser and percentiles are arbitrary functions that do not look at the order; C129_default shows the modelled default preprocessors, thresholds and trust region satisfy the requirements. Rounding is not modelled here."
 },
 "C130": {
  "status": "proved",
  "note": "Exact arithmetic over the reals. The formula is that of sklearn's method, to which the wrapper passes its arguments; its gradient is not modelled."
 },
 "C131": {
  "status": "proved",
  "note": "Over the real numbers (no rounding), in the space of transformed values, before the clipping from above. The kernel is any symmetric function."
 },
 "C132": {
  "status": "proved",
  "note": "Over the real numbers (no rounding), for noise variances in the space of transformed values. In double precision the decomposition of a matrix with repeated noiseless points may succeed because of rounding."
 },
 "C133": {
  "status": "proved",
  "note": "Over the real numbers, for a point in the trust region that the classifier takes for finite. Continuity is proved for all kernels of the model except real powers of kernels that may be 0 or negative; kernels which do not vanish at large distances (constant and dot-product terms, periodic ones) are excluded from the second part."
 },
 "C134": {
  "status": "partial",
  "note": "Proved for every kernel in exact arithmetic; partial because it is refuted for training points whose individual noise exceeds the average (C134_individual_refuted). The regressor has no classifier, or it accepts the lies; in the comparison of values the prediction is not clipped there and at the lie."
 },
 "C135": {
  "status": "partial",
  "note": "Proved: partition, data frame, number of predictions, no infinite points without a classifier. Refuted in the source: after appends that do not train the classifier, with only -inf, and for a new regressor (TypeError) (the reported threshold is C71, predictions without classifier C23). Columns of the data frame are modelled as points, not per coordinate."
 },
 "C136": {
  "status": "partial",
  "note": "Proved: other processes, what the column says (C136_column, C136_column_generic). Refuted in the source: the rest (C136_main_refuted, C136_model_refuted, C136_column_refuted). Drawing and printing are left out."
 },
 "C137": {
  "status": "partial",
  "note": "C137_known: all runs (resumed, fresh, or with enough points), all ways to end. C137_initial_refuted: a failed initial training loses all its evaluations (at least max_initial per process). C137_last_refuted, C137_noise_refuted: a batch that append_to_data rejects before storing it is lost. Surrogates with fewer points than n_initial are covered by C50_duplicates_refuted."
 },
 "C138": {
  "status": "partial",
  "note": "C138_reference, C138_prior, C138_ref, C138_names: all inputs (exact arithmetic for low + (high - low) u). C138_unlimited: without limits in some direction a draw raises OverflowError. C138_exchanged_draw: limits in the wrong order are left to numpy. C138_outside_refuted: a reference box that misses the prior is accepted and every point drawn from it has log-posterior -inf. C138_exchanged_refuted: the same for prior limits in the wrong order."
 },
 "C139": {
  "status": "proved",
  "note": "For a fresh run the noise level is one number for all points (one level per point cannot be run at all: C137). The parts that are not modelled are assumed to return, see well_behaved, good_init and good_pass."
 },
 "C140": {
  "status": "partial",
  "note": "All claims about reading, setting, unknown names, writing back and copies are proved, and that LogExp without zeta needs the dimension (C140_no_zeta); the five claims that do not hold are refuted (C140_*_refuted)."
 },
 "C141": {
  "status": "partial",
  "note": "Runner: proved for all memories. Four refuted parts: generate_mc_sample, reuse of its dictionary, acquisition objects and convergence criteria made directly write into the given dictionaries."
 },
 "C142": {
  "status": "partial",
  "note": "Proved for surrogates made from kernels of the user, as a simulation by the value-level model of C101 and C102. Two refuted parts: kernels taken from kernel_ of another surrogate, and kernels in which one object occurs twice."
 },
 "C143": {
  "status": "partial",
  "note": "Double precision with Flocq. C143_round_trip, C143_round_trip_scale: the errors; C143_order, C143_apart: order and distinct values; C143_inf, C143_mean; C143_infinite: infinite values do not change how the others are transformed. Refuted: exact round trip (C143_exact_refuted), distinct values stay distinct (C143_distinct_refuted), equal values are transformed to 0 (C143_equal_refuted: to -1 or NaN, depending on the value). What the surrogate computes between the two transforms is not part of it."
 },
 "C144": {
  "status": "partial",
  "note": "Double precision with Flocq; numbers below 2^53. C144_ceil, C144_floor, C144_split (the split of the code is that of C01, which assumes exact division), C144_balanced, C144_initial, C144_iterations_left, C144_n_correct, C144_option, C144_fraction. Refuted: decimal factors as written (C144_option_refuted, C144_fraction_refuted). Powers as in '2d^1.5' are not part of it (see C10)."
 },
 "C145": {
  "status": "partial",
  "note": "Over the real numbers with infinities and NaN. C145_defaults, C145_mean, C145_divergence (value, sign, equality case), C145_order, C145_dropped, C145_constant, C145_weights, C145_repeated, C145_infinite. Refuted: samples of weight 0 make no difference (C145_zero_weight_refuted), a number without finite logp (C145_nan_refuted), never negative (C145_negative_refuted)."
 },
 "C146": {
  "status": "partial",
  "note": "C146_restored, C146_left, C146_silent, C146_kl_norm: all programs, settings and flags. C146_kl_mc_refuted: kl_mc has no such block and depends on the settings. C146_reused_refuted: a NumpyErrorHandling object made before the user changes the settings undoes the change (GPry always makes it in the with statement). Threads are not modelled."
 },
 "C147": {
  "status": "partial",
  "note": "C147_repeat: any strategy, seeds, processes. Refuted: the final sample takes no seed, and if its diagnosis fails the run continues, so runs may differ beyond (C147_diagnosis_refuted); UltraNest (C147_ultranest_refuted, there is a warning); KL criteria with BatchOptimizer, whose chain takes no seed (C147_kl_refuted); a regressor passed as an object without random state in one process (C147_no_state_refuted); no seed (C147_no_seed_refuted). Assumed: everything but random numbers is deterministic (likelihood, optimiser, samplers given their seed)."
 },
 "C148": {
  "status": "partial",
  "note": "Kernels, scores, solutions, predictions and their gradients with Normalize_bounds (C148_kernel..C148_std_gradient, exact arithmetic); KL divergence, moments of samples, alignment, verdict on the final sample (C148_divergence..C148_diagnose, exact arithmetic, inverse assumed to be one); bounds, trust region, filter of candidates (C148_in_bounds..C148_accepted, machine numbers, any rounding). Refuted: gaussian_distance (C148_distance_refuted), which multiplies by the Cholesky factor of the correlations instead of its inverse. Not covered: Whitening, random draws, the optimiser of hyperparameters, the classifier."
 },
 "C149": {
  "status": "proved",
  "note": "Any sequence of checks, saves and interruptions (C149_saves_invisible, C149_resumed); no live function in what is saved (C149_saved_inert). Assumed: deepcopy and pickle reproduce the other attributes; the input is generated with a likelihood; the sampler does not keep and change it."
 },
 "C150": {
  "status": "partial",
  "note": "PolyChord: what is returned and stored (C150_returned), the evaluations kept and when (C150_kept), independence of earlier runs given a seed (C150_independent), nothing left after failures (C150_failed). UltraNest over histories (C150_ultranest). Refuted: without a seed PolyChord uses the seed of an earlier run (C150_seed_refuted); UltraNest gets no seed (C150_ultranest_seed_refuted); keep_all raises, losing the sample, if one process evaluated nothing (C150_idle_refuted); after a failure UltraNest keeps the old sample (C150_stale_refuted). nessai runs in the main process only here."
 },
 "C151": {
  "status": "partial",
  "note": "PolyChord gets the names and labels meant for every documented form (C151_polychord); UltraNest and nessai for names without labels (C151_ultranest, C151_nessai: own bounds, coordinates in order; C151_renamed: names do not matter). Mixed lists raise for PolyChord (C151_mixed). Refuted: pairs of name and label reach UltraNest and nessai as tuples (C151_labels_refuted); repeated names and too few names are accepted by nessai and the function gets points with too few coordinates, too many raise IndexError (C151_repeated_refuted, C151_number_refuted); the three treat an empty list differently (C151_empty_refuted)."
 },
 "C152": {
  "status": "partial",
  "note": "The ceiling is finite and exact up to three roundings (C152_top, C152_bounded); not below the best value if the spread of the values exceeds rounding errors (C152_not_below, C152_default), then nothing observed is lowered and what is cut stays at least as large as all training values (C152_unchanged, C152_training); always for the factors 1 (C152_one) and 2 (C152_two). Refuted for equal values: with the single value -63 or two values 15 the default ceiling is one rounding below it (C152_single_refuted)."
 },
 "C153": {
  "status": "partial",
  "note": "Proved: what the sampler gets is exactly the user's options plus the defaults not overridden, with the output asked for (C153_asked); when it succeeds if Cobaya works (C153_accepted) and what is refused (C153_refused); the runner passes names that are accepted (C153_runner). Refuted: \"MCMC\" or \"PolyChord\" in other case raise KeyError (C153_case_refuted); the sampler is listed under itself as the key, not its name (C153_key_refuted); verbose=None raises TypeError for mcmc without a valid covariance matrix (C153_verbose_refuted)."
 },
 "C154": {
  "status": "partial",
  "note": "Proved: folder and name of the file (C154_where), always a proper file in that folder (C154_plain), distinct names up to .txt (C154_distinct), the default (C154_default), no other file changes and only the main process writes (C154_saved). Refuted: output=False, documented as no output, raises TypeError in the main process after the sample has been drawn, while other processes go on (C154_false_refuted)."
 },
 "C155": {
  "status": "partial",
  "note": "Proved: after a sample (C155_sample), with NORA (C155_nora), both from the same sample in all processes (C155_together), errors are passed on (C155_raises), a checkpoint with NORA (C155_checkpoint). Refuted: criteria are never consulted since the attribute is looked up in the list of criteria (C155_criterion_refuted; C155_single shows that a criterion itself would be used), nor for chains started from a checkpoint (C155_checkpoint_refuted)."
 },
 "C156": {
  "status": "partial",
  "note": "Proved: a single point inside the bounds (C156_point), agreement with the true likelihood (C156_agrees; with a Cobaya model C156_cobaya). Refuted: logL with two or more points raises ValueError (C156_list_refuted); outside the bounds it is +infinity or NaN (C156_outside_refuted, C156_cobaya_outside_refuted); the runner has no log_prior_volume (C156_volume_refuted); logL_truth with a Cobaya model is a pair (C156_cobaya_refuted, given Cobaya's documented interface)."
 },
 "C157": {
  "status": "partial",
  "note": "Proved: one process (C157_single); the counters afterwards (C157_after); what is reported with several processes (C157_reported) and when it is right (C157_right). Refuted: with several processes only the evaluations of the main one count, once per process (C157_others_refuted), and those it made before, since the surrogate was shared, are counted again for each other process (C157_before_refuted)."
 },
 "C158": {
  "status": "partial",
  "note": "Proved: all criteria are drawn if all have been computed and there are enough colours (C158_all), also in the trace (C158_trace). Refuted: another value of evaluations raises KeyError (C158_evaluations_refuted); criteria after one that has not been computed are missing, without error in the trace (C158_hidden_refuted); more criteria than colours raise IndexError (C158_colors_refuted)."
 },
 "C159": {
  "status": "partial",
  "note": "Proved for non-zero exponents of either sign (C159_exponent) and numbers without exponent (C159_plain). Refuted: an exponent of zero, which %e writes, is lost (C159_zero_refuted)."
 },
 "C160": {
  "status": "partial",
  "note": "Proved: exactly the plots asked for if none fails (C160_written, C160_default), only those if some do, without ending the run (C160_only), values of options (C160_options), corner plots do not affect others nor raise (C160_corner, C160_direct), names of files (C160_iterations, C160_distances). Refuted: plots after one that fails are not made (C160_isolated_refuted); an unknown option disables all plots, with a message in the log only (C160_unknown_refuted); an empty dictionary gives no plots (C160_empty_refuted)."
 },
 "C161": {
  "status": "partial",
  "note": "Proved: parameters, bounds and labels in order (C161_bounds, C161_bounds_dict), filled contours (C161_filled), training points (C161_training), samples and training points of the plot of a run (C161_plot_mc, C161_single). Refuted: bounds given as a list raise ValueError if the last sample lacks one of the parameters (C161_missing_refuted); bounds without parameters raise TypeError (C161_default_refuted); an added sample that lacks a parameter removes it from the plot (C161_added_refuted); the log-posterior asked for by the plot of a run is never shown, since in its samples it is a derived parameter (C161_logp_refuted)."
 },
 "C162": {
  "status": "partial",
  "note": "Proved: functions (C162_function), models and what is kept of them, the warning (C162_model), dictionaries (C162_dict), what is refused (C162_refused), checkpoints (C162_rebuild, assuming that Cobaya makes of the info of a model one with the same parameters, labels and bounds). Refuted: dictionaries for which Cobaya raises exceptions other than its LoggedError are not refused with TypeError, these are raised as they are (C162_raised_refuted)."
 },
 "C163": {
  "status": "partial",
  "note": "Proved: limits and temperature (C163_precision), proposal (C163_proposal), both options refused (C163_both), the same options in all processes without an earlier sample (C163_parallel). Refuted: n_draws and n_draws_per_dimsquared have no effect (C163_draws_refuted); with an earlier sample the main process proposes with another covariance matrix than the others (C163_parallel_refuted)."
 },
 "C164": {
  "status": "partial",
  "note": "Proved: new runs (C164_new_run) and those resumed after a check (C164_resumed), in any process, for any number of iterations. Refuted: resumed from the checkpoint saved after the initial training, every process but the main one raises IndexError in the first iteration if a criterion does not handle MPI (C164_first_refuted)."
 },
 "C165": {
  "status": "partial",
  "note": "Proved: the folders of any number of runs (C165_folders), all different (C165_distinct), used as they are by the interfaces (C165_used), for any form of the path; without a folder (C165_random); other processes (C165_others); files in the folder given are kept by the three samplers (C165_kept). Refuted: the subfolders are not checked to be new, so another object with the same folder uses the same ones, and UltraNest and Nessai delete whatever was in them (C165_new_refuted)."
 },
 "C166": {
  "status": "partial",
  "note": "Proved: numbers and rows of a run that is not stopped (C166_numbers), rows of any sequence of sessions (C166_rows), how many full fits a run that is not stopped has (C166_full), and that stops after multiples of both periods do not change the fits (C166_periods). Refuted: resumed runs count from 1 again, so there is never a full fit if every session stops before its first one (C166_never_refuted), and corner plots overwrite those of earlier iterations (C166_plots_refuted). The definitions of MResumeIt have not been mutated."
 }
}