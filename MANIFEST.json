{
 "claims": [
  {
   "property": "C01",
   "status": "proved",
   "theorems": [
    "Verif.TMpi.C01_split_number"
   ],
   "note": "Exact closed form of the shares for every n and number of processes."
  },
  {
   "property": "C02",
   "status": "proved",
   "theorems": [
    "Verif.TMpi.C02_step_split_merge",
    "Verif.TMpi.C02_compute_y_parallel",
    "Verif.TMpi.C02_compute_y_parallel_given_y_refuted"
   ],
   "note": "Round trip for every size; compute_y_parallel is refuted without mpi4py when y is given (comm is None)."
  },
  {
   "property": "C03",
   "status": "proved",
   "theorems": [
    "Verif.TMpi.C03_eval_truth_parallel"
   ],
   "note": "Values equal to the serial evaluation, each point evaluated once, for every number of processes."
  },
  {
   "property": "C04",
   "status": "proved",
   "theorems": [
    "Verif.TTruth.C04_logp",
    "Verif.TTruth.C04_user_likelihood",
    "Verif.TTruth.C04_one_dimension",
    "Verif.TTruth.C04_by_position",
    "Verif.TTruth.C04_keyword_only_refuted",
    "Verif.TTruth.C04_refused_refuted",
    "Verif.TTruth.C04_zero_width_refuted"
   ],
   "note": "Every box, point and likelihood; needs a prior of finite volume. A zero-width dimension gives +inf (C04_zero_width_refuted). Signatures: one parameter by position per dimension (C04_by_position); parameters that need their name are counted but each evaluation raises (C04_keyword_only_refuted); *args and extra parameters with defaults are refused (C04_refused_refuted)."
  },
  {
   "property": "C05",
   "status": "partial",
   "theorems": [
    "Verif.TTruth.C05_rebuild",
    "Verif.TTruth.C05_one_dimension_refuted",
    "Verif.TTruth.C05_repeated_name_refuted",
    "Verif.TTruth.C05_keyword_only_refuted"
   ],
   "note": "Proved for every dimension >= 2 and distinct names. The full statement is false of the code: refuted for every likelihood in one dimension, for repeated names and for keyword-only parameters."
  },
  {
   "property": "C06",
   "status": "proved",
   "theorems": [
    "Verif.TTools.C06_closed_box",
    "Verif.TTools.C06_one_point",
    "Verif.TTools.C06_nan_is_outside",
    "Verif.TTools.C06_shape_check",
    "Verif.TTools.C06_no_shape_check_refuted",
    "Verif.TTools.C06_broadcast"
   ],
   "note": "Every box and set of points, with NaN and infinities; without check_shape, broadcasting accepts a point of another dimension (C06_no_shape_check_refuted; exactly when: C06_broadcast)."
  },
  {
   "property": "C07",
   "status": "partial",
   "theorems": [
    "Verif.TTools.C07_in_training_exact",
    "Verif.TTools.C07_repeats_flagged",
    "Verif.TTools.C07_first_kept",
    "Verif.TTools.C07_one_dimension",
    "Verif.TTools.C07_false_flags_partial",
    "Verif.TTools.C07_distinct_point_rejected_refuted"
   ],
   "note": "Proved: training-set test exact, every repetition rejected, first occurrence kept, exact in one dimension, and what a wrong rejection looks like. The exactness claim is refuted from two dimensions on."
  },
  {
   "property": "C08",
   "status": "proved",
   "theorems": [
    "Verif.TTools.C08_shrink_bounds",
    "Verif.TTools.C08_factor",
    "Verif.TTools.C08_samples_outside_refuted"
   ],
   "note": "Every prior, finite samples, factor >= 1; samples all outside the prior give an inverted interval (refuted witness)."
  },
  {
   "property": "C09",
   "status": "proved",
   "theorems": [
    "Verif.TTools.C09_zero_weights_removed",
    "Verif.TTools.C09_errors"
   ],
   "note": "Every weight array and companions; exact error condition."
  },
  {
   "property": "C10",
   "status": "proved",
   "theorems": [
    "Verif.TTools.C10_reserved",
    "Verif.TTools.C10_scaled",
    "Verif.TTools.C10_parts",
    "Verif.TTools.C10_parts_plain",
    "Verif.TTools.C10_plain",
    "Verif.TTools.C10_plain_value",
    "Verif.TTools.C10_errors"
   ],
   "note": "Every string and letter, for any float parser, power and target type."
  },
  {
   "property": "C11",
   "status": "proved",
   "theorems": [
    "Verif.TPreproc.C11_bounds_round_trip",
    "Verif.TPreproc.C11_transformed_bounds",
    "Verif.TPreproc.C11_zero_width_refuted",
    "Verif.TPreproc.C11_reversed_rejected"
   ],
   "note": "Round trip and image [0,1] for all boxes of positive width; zero-width boxes are accepted and break it (C11_zero_width_refuted); reversed boxes are rejected, by a TypeError."
  },
  {
   "property": "C12",
   "status": "proved",
   "theorems": [
    "Verif.TPreproc.C12_mean_std",
    "Verif.TPreproc.C12_median",
    "Verif.TPreproc.C12_only_finite_values",
    "Verif.TPreproc.C12_chi2",
    "Verif.TPreproc.C12_not_fitted",
    "Verif.TPreproc.C12_no_spread_refuted"
   ],
   "note": "All data sets with at least two different finite values; with no spread the transform divides by zero (C12_no_spread_refuted)."
  },
  {
   "property": "C13",
   "status": "proved",
   "theorems": [
    "Verif.TPreproc.C13_order",
    "Verif.TPreproc.C13_round_trip",
    "Verif.TPreproc.C13_fit",
    "Verif.TPreproc.C13_bounds"
   ],
   "note": "Any stages and any length; fit, transforms, bounds and scales."
  },
  {
   "property": "C14",
   "status": "partial",
   "theorems": [
    "Verif.TPreproc.C14_failed_fit_refuted",
    "Verif.TPreproc.C14_failed_refit_refuted",
    "Verif.TPreproc.C14_learning_refuted",
    "Verif.TPreproc.C14_fit_partial",
    "Verif.TWhiten.C14_learnt_refuted",
    "Verif.TWhiten.C14_one_point_refuted",
    "Verif.TKl.C14_learnt_mean"
   ],
   "note": "Refuted: a fit that fails in the decomposition leaves mean and covariance replaced; learning raises RuntimeError unless there are as many points as dimensions, and then the covariance that is learnt has the eigenvalue 0 for every decomposition, by whose root points are divided (C14_learnt_refuted, over the real numbers); one point in one dimension leaves a transform that raises (C14_one_point_refuted). C14_fit_partial: the cases in which it holds."
  },
  {
   "property": "C15",
   "status": "partial",
   "theorems": [
    "Verif.TSvm.C15_stored_labels",
    "Verif.TSvm.C15_prediction",
    "Verif.TSvm.C15_no_finite_value",
    "Verif.TSvm.C15_only_minus_inf_growing",
    "Verif.TSvm.C15_only_minus_inf_refuted",
    "Verif.TSvm.C15_is_finite"
   ],
   "note": "Stored labels, predictions and the all-infinite case are proved for every fit. The claim for histories is false: after a fit with only finite points, a fit with only -inf points keeps predicting finite (C15_only_minus_inf_refuted). It is proved for growing training sets, which is how the GPR calls the classifier."
  },
  {
   "property": "C16",
   "status": "partial",
   "theorems": [
    "Verif.TGpr.C16_append_log",
    "Verif.TGpr.C16_aligned",
    "Verif.TGpr.C16_number_reported",
    "Verif.TGpr.C16_number_reported_no_classifier",
    "Verif.TGpr.C16_number_reported_refuted",
    "Verif.TGpr.C16_misaligned_refuted"
   ],
   "note": "The log is proved for every history of returning calls. Alignment needs a classifier: without one, points appended with no values are stored (C16_misaligned_refuted). The reported number is proved without a classifier and when every append refits the classifier; appends with fit_classifier=False are not counted (C16_number_reported_refuted)."
  },
  {
   "property": "C17",
   "status": "partial",
   "theorems": [
    "Verif.TGpr.C17_after_update",
    "Verif.TGpr.C17_every_history",
    "Verif.TGpr.C17_no_classifier",
    "Verif.TGpr.C17_nan_refuted"
   ],
   "note": "Proved for appends that update the model and for every history from a new regressor. Hypotheses: no NaN; for histories also no +inf and a non-negative threshold. With a NaN among the values the training set never changes again (C17_nan_refuted)."
  },
  {
   "property": "C18",
   "status": "proved",
   "theorems": [
    "Verif.TGpr.C18_kept"
   ],
   "note": "Every history from a new regressor with a classifier. Hypotheses: values finite or -inf, at least one finite, non-negative threshold; NaN is excluded (see C17_nan_refuted)."
  },
  {
   "property": "C19",
   "status": "partial",
   "theorems": [
    "Verif.TGpr2.C19_rejected_unchanged",
    "Verif.TGpr2.C19_wrong_dimension",
    "Verif.TGpr2.C19_mismatch_refuted",
    "Verif.TGpr2.C19_mismatch_witness_refuted"
   ],
   "note": "Invalid flags, only one of X and y, and invalid noise: object unchanged. Wrong dimension: only the last-appended count changes. Refuted for X and y of different lengths: both are stored before the call raises, and with a classifier no later well-formed append returns."
  },
  {
   "property": "C20",
   "status": "partial",
   "theorems": [
    "Verif.TGpr2.C20_aligned",
    "Verif.TGpr2.C20_scalar",
    "Verif.TGpr2.C20_variances",
    "Verif.TGpr2.C20_first_levels_refuted",
    "Verif.TGpr2.C20_first_append_refuted"
   ],
   "note": "Proved from a state whose levels are already per point and aligned. Refuted when individual levels are given while a single level is set: the call raises, or returns with too many levels."
  },
  {
   "property": "C21",
   "status": "partial",
   "theorems": [
    "Verif.TGpr3.C21_append_then_refit",
    "Verif.TGpr3.C21_fit_hyperparameters_refuted",
    "Verif.TGpr3.C21_no_classifier_refuted",
    "Verif.TGpr3.C21_no_new_finite_refuted",
    "Verif.TGpr3.C21_individual_noise_refuted"
   ],
   "note": "append(fit=True) against append(fit=False) then append(None, None, fit=True): same object up to the last-appended counts, with a classifier, preprocessors that forget earlier fits, and a new point within the threshold. Refuted for fit_gpr_hyperparameters(), without a classifier, with no new point within the threshold, and with noise per point."
  },
  {
   "property": "C22",
   "status": "partial",
   "theorems": [
    "Verif.TGpr3.C22_appends",
    "Verif.TGpr3.C22_fit_hyperparameters_refuted",
    "Verif.TGpr3.C22_no_classifier_refuted",
    "Verif.TGpr3.C22_preprocessor_refuted",
    "Verif.TGpr3.C22_noise_refuted"
   ],
   "note": "Proved for histories of appends only, from a new regressor with a classifier, that all refit preprocessors and classifier; values finite or -inf, preprocessors that forget earlier fits. Refuted after fit_gpr_hyperparameters(), without a classifier, for mixed appends with and without refits, and for the noise variances."
  },
  {
   "property": "C23",
   "status": "partial",
   "theorems": [
    "Verif.TPredict.C23_one_per_query",
    "Verif.TPredict.C23_minus_inf",
    "Verif.TPredict.C23_ceiling",
    "Verif.TPredict.C23_std",
    "Verif.TPredict.C23_predict_std",
    "Verif.TPredict.C23_gradients",
    "Verif.TPredict.C23_gradients_refused",
    "Verif.TPredict.C23_trust_std_refuted",
    "Verif.TPredict.C23_predict_is_finite_refuted"
   ],
   "note": "For X-preprocessors that work row by row: one mean and standard deviation per query, the same as for the query alone; gradients are given for a single query only, one row each, without any change of mean and standard deviation (C23_gradients, C23_gradients_refused; given a kernel whose gradient exists, see C66); -inf if classified infinite or outside the trust region, and finite otherwise if training values, clip_factor and the GP mean are finite; means (not NaN) below the ceiling if training values and clip_factor are finite; standard deviations non-negative, and 0 if classified infinite, if variances are not NaN and root and inverse scale keep signs. Refuted: outside the trust region the standard deviation is not 0 (C23_trust_std_refuted); predict_is_finite without a classifier returns one entry per training point (C23_predict_is_finite_refuted)."
  },
  {
   "property": "C24",
   "status": "partial",
   "theorems": [
    "Verif.TCopy.C24_same_predictions",
    "Verif.TCopy.C24_same_std",
    "Verif.TCopy.C24_independent",
    "Verif.TCopy.C24_trust_refuted",
    "Verif.TCopy.C24_clip_refuted",
    "Verif.TCopy.C24_shared_preprocessor_refuted",
    "Verif.TCopySeed.C24_generator_seed",
    "Verif.TCopySeed.C24_generator_refuted",
    "Verif.TCopySeed.C24_generator_idle",
    "Verif.TCopySeed.C24_generator_distinct",
    "Verif.TCopySeed.C24_generator_loaded_refuted",
    "Verif.TCopySeed.C24_generator_global"
   ],
   "note": "Same predictions for the default clip_factor if there is no trust region or it is ignored; same predict_std always; independence for every later history of both objects if fitting does not change the preprocessors. Refuted: trust region and clip_factor are not copied; preprocessors are shared, so refitting one object changes predictions of the other. Random numbers: with an integer seed each fit of either object draws the same starting points whatever happens to the other; a generator is shared, so a fit of the copy changes the starting points of the next fit of the original (refuted), unless the copies draw nothing (as in the acquisition); numbers drawn by the original and all copies are all different, but one that was saved and loaded repeats them."
  },
  {
   "property": "C25",
   "status": "partial",
   "theorems": [
    "Verif.TGpr4.C25_best_restart",
    "Verif.TGpr4.C25_nan_refuted",
    "Verif.THyper.C25_kernel",
    "Verif.TFit.C25_best_process"
   ],
   "note": "Serial fit (C25_best_restart) and parallel fit over all processes (C25_best_process) proved for every number of runs and processes, provided no run ends with NaN (the parallel theorem also needs accepted new points, since otherwise nothing is fitted, and at least one restart). A run that ends with NaN is the one kept (C25_nan_refuted), so the statement as given is false."
  },
  {
   "property": "C26",
   "status": "partial",
   "theorems": [
    "Verif.TGpr2.C26_last_appended",
    "Verif.TGpr2.C26_last_appended_finite",
    "Verif.TGpr2.C26_empty_refuted",
    "Verif.TGpr2.C26_no_finite_refuted"
   ],
   "note": "Proved for batches of at least one point. Refuted after a call without points, which returns all points; last_appended_finite returns the whole training set if no new point was accepted."
  },
  {
   "property": "C27",
   "status": "proved",
   "theorems": [
    "Verif.TLinAlg.C27_residual",
    "Verif.TLinAlg.C27_interpolates",
    "Verif.TLinAlg.C27_predict",
    "Verif.TPsd.C27_kernels"
   ],
   "note": "Over the real numbers (MLinAlg: Cholesky factor, triangular solves), for every symmetric kernel, training set, noise and point for which the model can be computed: at a training point the mean is the value minus noise times the dual coefficient; with zero noise at that point, predict's mean (affine y-preprocessor, clipping factor at least 1) is exactly the value and its standard deviation is 0. C27_kernels: for all kernels of MKernel. Rounding is not modelled."
  },
  {
   "property": "C28",
   "status": "proved",
   "theorems": [
    "Verif.TLinAlg.C28_best_predictor",
    "Verif.TLinAlg.C28_variance",
    "Verif.TLinAlg.C28_more_points",
    "Verif.TLinAlg.C28_appended",
    "Verif.TLinAlg.C28_exists",
    "Verif.TPsd.C28_kernels"
   ],
   "note": "Over the real numbers, for every symmetric kernel: the variance is the smallest expected squared error of a linear predictor and the mean is that predictor (C28_best_predictor); training points added anywhere in any order, with any values and noise, never increase variance nor standard deviation, whenever both models can be computed (C28_more_points, C28_appended, C28_kernels); for positive kernels and noise at least 0 the variance is between 0 and the prior's (C28_variance), and with positive noise the model can always be computed (C28_exists). Fixed hyperparameters and preprocessors; rounding is not modelled."
  },
  {
   "property": "C29",
   "status": "partial",
   "theorems": [
    "Verif.TPool.C29_pool_sorted",
    "Verif.TPool.C29_pool_sorted_bulk_first",
    "Verif.TPool.C29_nan_acquisition_refuted",
    "Verif.TPool.C29_bulk_on_nonempty_pool_refuted"
   ],
   "note": "Every sequence of additions one by one, or with a bulk addition first, with means that are numbers and acquisitions of numbers that are numbers. False of the code for bulk additions to a pool that holds points and for acquisitions that are NaN: refuted."
  },
  {
   "property": "C30",
   "status": "proved",
   "theorems": [
    "Verif.TPool.C30_pool_contents",
    "Verif.TPool.C30_no_duplicates"
   ],
   "note": "Every sequence of calls in every mode."
  },
  {
   "property": "C31",
   "status": "proved",
   "theorems": [
    "Verif.TPool.C31_conditioned_on_points_above",
    "Verif.TPool.C31_conditioned_on_points_above_bulk_first",
    "Verif.TPool.C31_exact",
    "Verif.TPool.C31_after_reset"
   ],
   "note": "Every sequence of additions one by one, or with a bulk addition first, with means that are numbers; exact values when conditioning never increases the acquisition (without it they are the running minimum). C31_after_reset: once reset_cache has been called (as NORA does after each ranking), add_one raises AttributeError for a point that ranks between those of the pool."
  },
  {
   "property": "C32",
   "status": "proved",
   "theorems": [
    "Verif.TPool.C32_add_one_terminates",
    "Verif.TPool.C32_calls_terminate"
   ],
   "note": "The reranking loop and the calls end without error for every pool reached."
  },
  {
   "property": "C33",
   "status": "partial",
   "theorems": [
    "Verif.TPool.C33_drop_empty",
    "Verif.TPool.C33_drop_empty_bulk_first",
    "Verif.TPool.C33_bulk_on_nonempty_pool_refuted",
    "Verif.TPool.C33_len_of_compact_copy_refuted"
   ],
   "note": "Every pool reached by additions one by one, or with a bulk addition first; refuted for a later bulk addition. The len of a compact copy is one too small (refuted)."
  },
  {
   "property": "C34",
   "status": "proved",
   "theorems": [
    "Verif.TPool.C34_bulk_greedy"
   ],
   "note": "Every batch of candidates whose means are numbers, and size; greedy choice at each slot, nothing better left over, sorted."
  },
  {
   "property": "C35",
   "status": "partial",
   "theorems": [
    "Verif.TPool.C35_add_one_drops_no_better_point",
    "Verif.TPool.C35_bulk_on_nonempty_pool_refuted",
    "Verif.TPool.C35_batch_single_refuted",
    "Verif.TPool.C35_batch_sorted_refuted"
   ],
   "note": "Proved for every single addition to every reachable pool (C35_add_one_drops_no_better_point). The full statement is false of the code: bulk on a non-empty pool and batches one by one are refuted by witnesses."
  },
  {
   "property": "C36",
   "status": "partial",
   "theorems": [
    "Verif.TCopy.C36_untouched",
    "Verif.TBatch.C36_points",
    "Verif.TBatch.C36_clean",
    "Verif.TBatch.C36_processes",
    "Verif.TBatch.C36_best",
    "Verif.TBatch.C36_in_bounds",
    "Verif.TBatch.C36_returns",
    "Verif.TBatch.C36_zero_restarts_refuted",
    "Verif.TBatch.C36_default_bounds_refuted",
    "Verif.TBatch.C36_stale_only",
    "Verif.TBatch.C36_nan_refuted",
    "Verif.TBatch.C36_stale_refuted"
   ],
   "note": "For a clean engine, any nonzero number of processes: exactly n_points are returned, each lie being the prediction of the copy with the previous points appended (C36_points, kriging believer); results do not depend on the number of processes (C36_processes); under an optimiser that does not end worse than it starts, an invertible X preprocessor and an acquisition function below +infinity, the value returned is that of the point and at least that of the last training point inside of the bounds and of every proposal tried (C36_best); inside of the bounds if optimiser and proposer respect them (C36_in_bounds); it returns (C36_returns) and leaves no captured objective (C36_clean). The original regressor is untouched by lies appended to the copy (C36_untouched). Refuted: zero restarts raise IndexError, though documented as one run (C36_zero_restarts_refuted); the documented default bounds=None raises (C36_default_bounds_refuted); a NaN optimum is chosen before finite ones (C36_nan_refuted); after an exception in the optimiser the next call optimises the old surrogate (C36_stale_refuted); only processes with a restart can keep it (C36_stale_only)."
  },
  {
   "property": "C37",
   "status": "proved",
   "theorems": [
    "Verif.TNora.C37_schedule",
    "Verif.TNora.C37_sample",
    "Verif.TNora.C37_sampler_raises"
   ],
   "note": "Every history of calls that return; a call whose sampler raises changes nothing (C37_sampler_raises), so the schedule is that of the calls that return."
  },
  {
   "property": "C38",
   "status": "partial",
   "theorems": [
    "Verif.TNora.C38_reweighted",
    "Verif.TNora.C38_not_cumulative",
    "Verif.TNora.C38_empty_refuted",
    "Verif.TNora.C38_infinite_refuted"
   ],
   "note": "Proved for samples whose new weights are finite, non-negative and not all zero, any number of processes, and for repeated re-weighting. False of the code for bounds without a point of the sample (all calls raise from then on) and for points predicted infinite before and after (all weights NaN): refuted."
  },
  {
   "property": "C39",
   "status": "partial",
   "theorems": [
    "Verif.TNora.C39_not_twice",
    "Verif.TNora.C39_twice_refuted"
   ],
   "note": "Proved for samples in which no point's coordinates are all among those of another (told_apart). Refuted otherwise: (1,2), (2,1)."
  },
  {
   "property": "C40",
   "status": "proved",
   "theorems": [
    "Verif.TConv.C40_policies",
    "Verif.TConv.C40_monitors_no_influence",
    "Verif.TConv.C40_other_errors_propagate",
    "Verif.TConv.C40_accepted_policies"
   ],
   "note": "Characterisation of the verdict for every list of criteria; the accepted policy names; exceptions other than ConvergenceCheckError end the run (C40_other_errors_propagate)."
  },
  {
   "property": "C41",
   "status": "proved",
   "theorems": [
    "Verif.TConv.C41_same_verdict",
    "Verif.TConv.C41_other_exceptions_refuted"
   ],
   "note": "Every number of processes and combination of documented failures. An exception of another type in some processes only leaves the others waiting (C41_other_exceptions_refuted)."
  },
  {
   "property": "C42",
   "status": "proved",
   "theorems": [
    "Verif.TConv.C42_correct_counter",
    "Verif.TConv.C42_histories",
    "Verif.TConv.C42_empty_first_batch_refuted"
   ],
   "note": "Every sequence of batches starting with a non-empty one (an empty first batch raises IndexError: C42_empty_first_batch_refuted)."
  },
  {
   "property": "C43",
   "status": "partial",
   "theorems": [
    "Verif.TConv.C43_n_correct_refuted",
    "Verif.TConv.C43_one_more"
   ],
   "note": "False as documented: n_correct correct predictions are not enough (C43_n_correct_refuted); one more is (C43_one_more)."
  },
  {
   "property": "C44",
   "status": "partial",
   "theorems": [
    "Verif.TConv.C44_gaussian_kl",
    "Verif.TConv.C44_gaussian_kl_train_refuted",
    "Verif.TConv.C44_train_partial",
    "Verif.TConv.C44_train_kept"
   ],
   "note": "Proved in full for GaussianKL over every sequence of calls. False of GaussianKLTrain at its first call (C44_gaussian_kl_train_refuted); C44_train_partial says what holds of the criteria that compare with the training set. The mean and covariance kept for the next comparison (C44_train_kept)."
  },
  {
   "property": "C45",
   "status": "proved",
   "theorems": [
    "Verif.TConv.C45_dont_converge"
   ],
   "note": "In any list of criteria and any history."
  },
  {
   "property": "C46",
   "status": "proved",
   "theorems": [
    "Verif.TRun.C46_budget",
    "Verif.TRun.C46_fresh",
    "Verif.TRun.C46_no_acquisition"
   ],
   "note": "For every run from a surrogate reached by any history of calls, fresh or resumed, whether it returns or raises; assumes that the acquisition returns at most n_points_per_acq points and that preprocessing keeps the number of values. The bound max_total + n_points_per_acq - 1 holds unless the initial training alone exceeds it (bounded in C50; C46_fresh gives the closed form for one process)."
  },
  {
   "property": "C47",
   "status": "partial",
   "theorems": [
    "Verif.TRun.C47_last_batch_refuted",
    "Verif.TRun.C47_initial_refuted"
   ],
   "note": "False of the code: C47_last_batch_refuted and C47_initial_refuted are runs that evaluate 4 points with max_total = 3. What does hold is C46."
  },
  {
   "property": "C48",
   "status": "proved",
   "theorems": [
    "Verif.TRun.C48_passes",
    "Verif.TRun.C48_terminates"
   ],
   "note": "Number of passes bounded by a function of the options (C48_passes); allowing more passes than that makes no difference (C48_terminates). For every stream of proposals, values, criteria outcomes and exceptions, from any surrogate reached by calls; the resampling counter starts at 0, as the constructor sets it."
  },
  {
   "property": "C49",
   "status": "proved",
   "theorems": [
    "Verif.TRun.C49_again"
   ],
   "note": "After a run that returned. (After one that raised, run starts again from the initial training.)"
  },
  {
   "property": "C50",
   "status": "partial",
   "theorems": [
    "Verif.TInit.C50_enough",
    "Verif.TInit.C50_evaluations",
    "Verif.TInit.C50_all_infinite",
    "Verif.TInit.C50_max_initial_refuted",
    "Verif.TInit.C50_max_initial_processes_refuted",
    "Verif.TInit.C50_pretrained_refuted",
    "Verif.TInit.C50_duplicates_refuted",
    "Verif.TInit.C50_pretrained_quiet_refuted"
   ],
   "note": "For a fresh surrogate and values that are not NaN, returning implies at least n_initial accepted points, and the training set is exactly what was evaluated (C50_enough); evaluations bounded in terms of max_initial, n_initial and the number of processes, from any surrogate (C50_evaluations); RuntimeError if all values are infinite (C50_all_infinite). The bound max_initial itself is exceeded (C50_max_initial_refuted, C50_max_initial_processes_refuted). With a pre-trained surrogate fewer than n_initial points may be accepted (C50_pretrained_refuted), its points are appended a second time (C50_duplicates_refuted), and with enough of them and little output there is a ZeroDivisionError (C50_pretrained_quiet_refuted)."
  },
  {
   "property": "C51",
   "status": "proved",
   "theorems": [
    "Verif.TFit.C51_schedule",
    "Verif.TFit.C51_data",
    "Verif.TFit.C51_kept"
   ],
   "note": "Schedule and split of the restarts (C51_schedule), data appended in every case (C51_data), hyperparameters untouched if no refit is due (C51_kept). For every process number >= 1."
  },
  {
   "property": "C52",
   "status": "proved",
   "theorems": [
    "Verif.TOptions.C52_consistent",
    "Verif.TOptions.C52_values",
    "Verif.TOptions.C52_defaults",
    "Verif.TOptions.C52_infinite_refuted"
   ],
   "note": "Consistency of every accepted set of options (C52_consistent), relation to what was asked for (C52_values), defaults accepted for every dimension and process number (C52_defaults). Infinite values, which the documentation suggests for 'never', raise OverflowError (C52_infinite_refuted)."
  },
  {
   "property": "C53",
   "status": "proved",
   "theorems": [
    "Verif.TRun.C53_converged",
    "Verif.TRun.C53_not_converged",
    "Verif.TRun.C53_criteria"
   ],
   "note": "C53_converged: criteria and diagnosis both passed in the last pass, and nothing came after; C53_criteria spells out what the criteria require; C53_not_converged: otherwise the budget was reached or it gave up."
  },
  {
   "property": "C54",
   "status": "partial",
   "theorems": [
    "Verif.TRunData.C54_point",
    "Verif.TRunData.C54_first",
    "Verif.TRunData.C54_sample",
    "Verif.TRunData.C54_point_refuted",
    "Verif.TRunData.C54_error_refuted",
    "Verif.TRunData.C54_weights_refuted"
   ],
   "note": "False of the code as stated. Proved: in any state, a returning call that is given a true value leaves the point (or the sample) with both of its true values, and the weights that were given, one per point; a first call leaves nothing wrong even if it raises. Refuted: a second point without values keeps the old values; so does a call that raises because both values are given; a second sample without weights keeps the old weights, of the wrong length."
  },
  {
   "property": "C55",
   "status": "partial",
   "theorems": [
    "Verif.TRunData.C55_unchanged",
    "Verif.TRunData.C55_pandas_refuted"
   ],
   "note": "False of the code as stated. Proved: nothing stored changes with copy=True, or as_getdist, or without as_pandas. Refuted: as_pandas with copy=False removes the points from the stored sample, and the next table cannot be made (KeyError)."
  },
  {
   "property": "C56",
   "status": "proved",
   "theorems": [
    "Verif.TRunData.C56_consistent",
    "Verif.TRunData.C56_cobaya"
   ],
   "note": "The log-prior must be finite at the points for the sum (it is within the bounds). For Cobaya, the log-posterior is the prediction of the surrogate; the samplers themselves are not modelled."
  },
  {
   "property": "C57",
   "status": "partial",
   "theorems": [
    "Verif.TIo.C57_roundtrip",
    "Verif.TIo.C57_history",
    "Verif.TIo.C57_no_path",
    "Verif.TIo.C57_failed_save_refuted"
   ],
   "note": "Any uninterrupted save_checkpoint with the truth given, over any previous folder content, reports a complete checkpoint and reads back as the saved objects (C57_roundtrip), and so does any history of successful Runner.save_checkpoint calls, where the truth is written only by the first (C57_history; the path may hold anything before). Refuted after a failure: if the first save fails after opening the truth file, the Runner never rewrites it, so later successful saves leave a checkpoint reported complete that cannot be read without passing a truth (C57_failed_save_refuted). Pickling itself is taken as faithful, given that the stored dictionary of the truth is readable (get_truth hypothesis)."
  },
  {
   "property": "C58",
   "status": "partial",
   "theorems": [
    "Verif.TIo.C58_prefix",
    "Verif.TIo.C58_first",
    "Verif.TIo.C58_undetected_refuted",
    "Verif.TIo.C58_mixed_refuted"
   ],
   "note": "After a crash at any step the files are a prefix of new ones, a suffix of old ones and at most one cut off (C58_prefix); a crash in the very first save is always detected: incomplete, unreadable, or all saved (C58_first). Refuted over an existing checkpoint: check_checkpoint always reports complete (C58_undetected_refuted) and a crash between files reads, without error, as the new surrogate with the old everything else (C58_mixed_refuted)."
  },
  {
   "property": "C59",
   "status": "partial",
   "theorems": [
    "Verif.TIo.C59_complete",
    "Verif.TIo.C59_reported",
    "Verif.TIo.C59_missing_refuted"
   ],
   "note": "check_checkpoint reports exactly the files that are there (C59_reported). Whatever read_checkpoint returns is what the files hold, with none missing (C59_complete). The documented None for missing files is refuted: any missing file (the truth only if none was passed) makes it raise (C59_missing_refuted)."
  },
  {
   "property": "C60",
   "status": "partial",
   "theorems": [
    "Verif.TIo.C60_untouched",
    "Verif.TIo.C60_refused",
    "Verif.TIo.C60_spelling",
    "Verif.TIo.C60_resume",
    "Verif.TIo.C60_loaded",
    "Verif.TIo.C60_no_folder",
    "Verif.TIo.C60_no_path",
    "Verif.TIo.C60_fresh",
    "Verif.TIo.C60_no_loglike_refuted"
   ],
   "note": "Proved: start-up never alters the files of an existing folder (C60_untouched), refuses a path without a valid instruction (C60_refused), 'resume' on a complete checkpoint uses what is read or raises (C60_resume, C60_loaded), 'overwrite' and incomplete checkpoints start afresh independently of the files (C60_fresh), as do missing folders and no path (C60_no_folder, C60_no_path). Refuted: resuming without passing the likelihood always raises TypeError (C60_no_loglike_refuted)."
  },
  {
   "property": "C61",
   "status": "partial",
   "theorems": [
    "Verif.TProposal.C61_in_bounds",
    "Verif.TProposal.C61_centroid",
    "Verif.TProposal.C61_sampled",
    "Verif.TProposal.C61_update_bounds",
    "Verif.TProposal.C61_histories",
    "Verif.TProposal.C61_mean",
    "Verif.TProposal.C61_fraction",
    "Verif.TProposal.C61_mismatch_refuted",
    "Verif.TProposal.C61_infinite_refuted"
   ],
   "note": "For all nestings, draws and histories of updates: within the bounds set last, if those are finite and ordered and the training points finite (C61_in_bounds, C61_histories, C61_update_bounds); samples of distributions within any bounds and without errors (C61_sampled); the mean comes first exactly if inside, on the main process (C61_mean); PartialProposer takes the uniform proposal exactly if the coin is at most the fraction (C61_fraction). Refuted: PartialProposer does not align the bounds of the proposer it is given (C61_mismatch_refuted), and UniformProposer returns NaN for an infinite bound (C61_infinite_refuted). A proposal from centroids is between the values of its training points (C61_centroid)."
  },
  {
   "property": "C62",
   "status": "proved",
   "theorems": [
    "Verif.TProgress.C62_rows",
    "Verif.TProgress.C62_histories",
    "Verif.TProgress.C62_frozen"
   ],
   "note": "For every list of iterations (what is recorded in each) the table gets one row per iteration after the existing ones, holding in each column the last value recorded in that iteration or NaN (C62_rows); every history that does not raise on a new table is of this form (C62_histories); from any table with rows nothing raises and only the last row ever changes (C62_frozen). Cells are numbers; the list of criteria is one opaque value."
  },
  {
   "property": "C63",
   "status": "proved",
   "theorems": [
    "Verif.TAcqFunc.C63_minus_inf",
    "Verif.TAcqFunc.C63_value",
    "Verif.TAcqFunc.C63_increasing",
    "Verif.TAcqFunc.C63_auto_zeta"
   ],
   "note": "For a non-negative standard deviation and noise level (given, one number, or the average of several): -inf iff the mean is not a real number or std <= noise; the formula anywhere else; strictly increasing in mean (zeta > 0) and std where it is not -inf. The automatic zeta is in (0,1] and decreases with the dimension. Real arithmetic."
  },
  {
   "property": "C64",
   "status": "partial",
   "theorems": [
    "Verif.TAcqFunc.C64_right_iff",
    "Verif.TAcqFunc.C64_noiseless",
    "Verif.TAcqFunc.C64_noise_refuted",
    "Verif.TAcqFunc.C64_sigma_n_refuted",
    "Verif.TAcqFunc.C64_noises_refuted"
   ],
   "note": "For a surrogate whose own gradients are right, one noise level n with 0 <= n < std: the reported row is the gradient iff n times every component of the gradient of std is 0 (C64_right_iff); so right without noise (C64_noiseless), refuted with noise (C64_noise_refuted), and with sigma_n given the call always raises (C64_sigma_n_refuted); with noise levels per training point it raises unless they are as many as the parameters, and then each component uses the noise of another training point (C64_noises_refuted)."
  },
  {
   "property": "C65",
   "status": "proved",
   "theorems": [
    "Verif.TAcqFunc.C65_composite",
    "Verif.TAcqFunc.C65_exists"
   ],
   "note": "Any tree of sums, products, powers and constants over operands whose gradients are right at the point, where no part is infinite; powers with natural exponent >= 1 or of positive values. C65_exists: a gradient is returned if all operands have one."
  },
  {
   "property": "C66",
   "status": "partial",
   "theorems": [
    "Verif.TKernel.C66_gradient",
    "Verif.TKernel.C66_all_rows",
    "Verif.TKernel.C66_exists",
    "Verif.TKernel.C66_nested_product_refuted",
    "Verif.TKernel.C66_power_in_product_refuted",
    "Verif.TKernel.C66_matern_in_product_refuted",
    "Verif.TKernel.C66_kink_refuted",
    "Verif.TDirect.C66_direction"
   ],
   "note": "Over the real numbers, for any kernel expression: every row that gradient_x returns is the gradient, at points where the expression is built from differentiable pieces (regular: nonzero length scales, Matern 1/2 away from the training point, powers with natural exponent >= 1 or positive base; other values of nu excluded). A row exists if no product, power or Matern 1/2 is inside a product. Refuted: products of products (unless constant), powers inside products and Matern 1/2 inside products give None, i.e. an exception or a wrong shape; Matern 1/2 returns numbers at its kink. The row also gives the derivative along every line through the point (C66_direction)."
  },
  {
   "property": "C67",
   "status": "proved",
   "theorems": [
    "Verif.TMpi.C67_gather_aligned"
   ],
   "note": ""
  },
  {
   "property": "C68",
   "status": "partial",
   "theorems": [
    "Verif.TConv.C68_largest_difference_refuted",
    "Verif.TConv.C68_worst_ratio"
   ],
   "note": "False as documented (C68_largest_difference_refuted): the value is the difference of the point with the largest ratio of difference to tolerance (C68_worst_ratio)."
  },
  {
   "property": "C69",
   "status": "proved",
   "theorems": [
    "Verif.TPreproc.C69_not_learning",
    "Verif.TPreproc.C69_fixed_whitening",
    "Verif.TWhiten.C69_eigenvectors",
    "Verif.TWhiten.C69_bounds"
   ],
   "note": "C69_fixed_whitening: exact linear algebra on abstract matrices that are inverse to each other. C69_eigenvectors: over the real numbers, with the matrices of the code, if eigh returns an orthogonal eigen-decomposition of the covariance with positive eigenvalues: round trip both ways, and the norm of the transformed point is the Mahalanobis distance to the mean. C69_bounds: the transformed bounds are the smallest box around the transforms of all points in the bounds. C69_not_learning: without learning a covariance is needed, and later fits change nothing."
  },
  {
   "property": "C70",
   "status": "partial",
   "theorems": [
    "Verif.TPredict2.C70_prior_refuted",
    "Verif.TPredict2.C70_errors",
    "Verif.TPredict2.C70_unfitted"
   ],
   "note": "Refuted for every new regressor: predict always raises (C70_prior_refuted); with a classifier a ValueError, without one a TypeError, also after points were added without a fit (C70_errors, C70_unfitted)."
  },
  {
   "property": "C71",
   "status": "partial",
   "theorems": [
    "Verif.TPredict2.C71_offset",
    "Verif.TPredict2.C71_no_offset",
    "Verif.TPredict2.C71_threshold_refuted"
   ],
   "note": "For an affine y-preprocessor with positive scale, finite classifier thresholds and finite values: the reported threshold is too low by the offset (C71_offset), right without offset (C71_no_offset), wrong for some value with any other offset (C71_threshold_refuted)."
  },
  {
   "property": "C72",
   "status": "partial",
   "theorems": [
    "Verif.TPredict2.C72_mean_gradient_partial",
    "Verif.TPredict2.C72_scaled_X_refuted",
    "Verif.TPredict2.C72_std_gradient_refuted",
    "Verif.TGrad.C72_mean_gradient",
    "Verif.TGrad.C72_true_mean_gradient",
    "Verif.TGrad.C72_mean_right_iff",
    "Verif.TGrad.C72_true_std_gradient",
    "Verif.TGrad.C72_std_right_iff",
    "Verif.TGrad.C72_width_refuted",
    "Verif.TGrad.C72_scale_refuted",
    "Verif.TGrad.C72_dot_product_refuted",
    "Verif.TDirect.C72_whitened_mean",
    "Verif.TDirect.C72_whitened_std",
    "Verif.TDirect.C72_whitening_refuted"
   ],
   "note": "Over the real numbers, every kernel expression, any number of points and dimensions, at points where gradient_x returns and the kernel is differentiable: in transformed coordinates the reported mean gradient is the gradient of the predicted mean before clipping (C72_mean_gradient). With Normalize_bounds the true gradient below the clipping is the reported one divided by the prior widths (C72_true_mean_gradient), so it is right exactly in components that are 0 or along which the width is 1 (C72_mean_right_iff). For kernels of constant variance and a standard deviation above 1e-8, the true gradient of the standard deviation is the reported one divided by the y scale and the widths (C72_true_std_gradient, C72_std_right_iff). Refuted: prior width 2, y scale 2, and DotProduct, whose gradient is reported as 0. With Whitening the true gradients are the transpose of the whitening matrix applied to the reported ones (C72_whitened_mean, C72_whitened_std), so they are right exactly if that product is the reported row; refuted in C72_whitening_refuted. On the path through predict (classifier, trust region): C72_mean_gradient_partial and the older refutations."
  },
  {
   "property": "C73",
   "status": "partial",
   "theorems": [
    "Verif.TTotal.C73_returns",
    "Verif.TTotal.C73_fit",
    "Verif.TTotal.C73_history",
    "Verif.TTotal.C73_levels_refit_refuted",
    "Verif.TTotal.C73_after_infinite_refuted"
   ],
   "note": "If preprocessors keep lengths and do not raise, the one of y is affine with positive slope, and SVC (both labels), decomposition, optimiser and trust region (at least one point, finite values) do not raise: a non-empty batch of matching lengths without NaN or +inf (finite if there is no classifier) is accepted if it comes with a fit (True, 'simple' or arguments) or hyperparameters exist; noise levels may be one for all or one per point from the start; updates without data with one level for all, once a value is finite; any sequence of such calls and fits (C73_history). Exact arithmetic: with rounding the assertion on the labels can fail. Refuted: a batch without fit after a fit that only had -inf values (C73_after_infinite_refuted); an update without data when there are levels per point (C73_levels_refit_refuted)."
  },
  {
   "property": "C74",
   "status": "partial",
   "theorems": [
    "Verif.TAcqFunc.C74_gradients",
    "Verif.TAcqFunc.C74_factor_refuted",
    "Verif.TAcqFunc.C74_improvement_refuted"
   ],
   "note": "Mu, Std, ExponentialMu, ExponentialStd: gradients proved for any differentiable surrogate. Refuted: Mu and Std ignore a; the gradient of ExpectedImprovement is right only where the gradient of the mean is 0 (shown where an improvement is predicted). NonlinearLogExp is C108."
  },
  {
   "property": "C75",
   "status": "partial",
   "theorems": [
    "Verif.TRunData.C75_table",
    "Verif.TRunData.C75_name_refuted"
   ],
   "note": "False of the code as stated. Proved for distinct parameter names none of which is w, X, logpost, logprior or loglike. Refuted: a parameter called w replaces the weights."
  },
  {
   "property": "C76",
   "status": "partial",
   "theorems": [
    "Verif.TMc.C76_integers",
    "Verif.TMc.C76_fraction_refuted",
    "Verif.TMc.C76_other"
   ],
   "note": "False of the code as stated. Proved for all integers: a level is returned, monotone. Refuted: non-integers between 1 and 3 raise ValueError."
  },
  {
   "property": "C77",
   "status": "proved",
   "theorems": [
    "Verif.TMc.C77_start",
    "Verif.TMc.C77_distinct"
   ],
   "note": "For any training set without NaN and any argsort; distinct processes get distinct points if the training points are distinct."
  },
  {
   "property": "C78",
   "status": "partial",
   "theorems": [
    "Verif.TMc.C78_valid",
    "Verif.TMc.C78_precedence",
    "Verif.TMc.C78_quiet_refuted"
   ],
   "note": "False of the code as stated. Proved for verbosity >= 2, and the precedence. Refuted: with a lower verbosity whatever there is, valid or not, is handed over."
  },
  {
   "property": "C79",
   "status": "partial",
   "theorems": [
    "Verif.TMc.C79_model",
    "Verif.TMc.C79_missing",
    "Verif.TMc.C79_list_refuted"
   ],
   "note": "Proved for bounds given as an array or taken from the surrogate. Refuted for bounds given as a list of pairs, the documented form: it never returns."
  },
  {
   "property": "C80",
   "status": "proved",
   "theorems": [
    "Verif.TMc.C80_default",
    "Verif.TMc.C80_named",
    "Verif.TMc.C80_spelling"
   ],
   "note": "Which packages can be imported is arbitrary."
  },
  {
   "property": "C81",
   "status": "partial",
   "theorems": [
    "Verif.TMc.C81_rows",
    "Verif.TMc.C81_default_refuted"
   ],
   "note": "False of the code as stated. Proved when parameter names are given; refuted without: NameError (X_mc is not defined). The path of the file is not modelled."
  },
  {
   "property": "C82",
   "status": "partial",
   "theorems": [
    "Verif.TMc.C82_known",
    "Verif.TMc.C82_cobaya_refuted"
   ],
   "note": "False of the code as stated. Proved for paths and GetDist samples. Refuted: a Cobaya collection always makes it raise (the class is never imported, and the error is raised also after converting)."
  },
  {
   "property": "C83",
   "status": "partial",
   "theorems": [
    "Verif.TMc.C83_columns",
    "Verif.TMc.C83_labels",
    "Verif.TMc.C83_default_refuted"
   ],
   "note": "Proved for stored samples with at least one point and given bounds: log-densities appear if they vary by more than 1e-8. Refuted: with the default bounds=None it never returns. GetDist itself is not modelled."
  },
  {
   "property": "C84",
   "status": "partial",
   "theorems": [
    "Verif.TNs.C84_ultranest",
    "Verif.TNs.C84_corners",
    "Verif.TNs.C84_nessai_single",
    "Verif.TNs.C84_nessai_batch_refuted"
   ],
   "note": "Proved: UltraNest's transform maps the unit cube into the bounds, corners to corners; nessai's prior is right for a single point. Refuted for batches: one point inside makes the density of all nonzero."
  },
  {
   "property": "C85",
   "status": "partial",
   "theorems": [
    "Verif.TNs.C85_polychord",
    "Verif.TNs.C85_path",
    "Verif.TNs.C85_nessai",
    "Verif.TNs.C85_polychord_refuted",
    "Verif.TNs.C85_ultranest_refuted",
    "Verif.TNs.C85_folder_refuted"
   ],
   "note": "False of the code as stated. Proved: which files PolyChord and nessai delete, and how paths are split. Refuted: PolyChord deletes other runs whose root extends this one by an underscore; UltraNest ignores the given folder and deletes the last one; both nessai and UltraNest delete the whole parent folder of a root."
  },
  {
   "property": "C86",
   "status": "partial",
   "theorems": [
    "Verif.TNs.C86_sets",
    "Verif.TNs.C86_returns",
    "Verif.TNs.C86_error_refuted"
   ],
   "note": "False of the code as stated. Proved for PolyChord, UltraNest and nessai: a returning call sets exactly the given options and leaves all others alone (C86_sets), and it returns if the conversions do (C86_returns). Refuted: a raising call leaves earlier options set (C86_error_refuted)."
  },
  {
   "property": "C87",
   "status": "partial",
   "theorems": [
    "Verif.TNs.C87_polychord",
    "Verif.TNs.C87_nessai",
    "Verif.TNs.C87_single_refuted"
   ],
   "note": "Proved for nessai and for PolyChord with at least two samples. Refuted for a single line of output: a vector and two numbers instead of arrays of one."
  },
  {
   "property": "C88",
   "status": "partial",
   "theorems": [
    "Verif.TIo.C88_loaded",
    "Verif.TIo.C88_object",
    "Verif.TIo.C88_empty_refuted"
   ],
   "note": "Proved for passed objects that are truthy (C88_loaded) and for surrogates given as objects (C88_object). Refuted for falsy ones: an empty options dictionary is replaced by the stored one (C88_empty_refuted)."
  },
  {
   "property": "C89",
   "status": "partial",
   "theorems": [
    "Verif.TProgress.C89_sync",
    "Verif.TProgress.C89_single",
    "Verif.TProgress.C89_alone",
    "Verif.TProgress.C89_idempotent_refuted"
   ],
   "note": "Proved for two or more processes all having a row: agreement, largest/sum/first with missing values ignored, earlier rows and the numbers of training points unchanged (C89_sync), single recorder (C89_single), one process (C89_alone). Refuted: synchronising again adds the counts again (C89_idempotent_refuted)."
  },
  {
   "property": "C90",
   "status": "partial",
   "theorems": [
    "Verif.TProgress.C90_totals",
    "Verif.TProgress.C90_gap_refuted"
   ],
   "note": "Totals are right if no iteration lacks a value, but for the last convergence time (C90_totals). Refuted otherwise: one iteration without truth evaluations or fit, as a re-sampling one, makes the total NaN (C90_gap_refuted)."
  },
  {
   "property": "C91",
   "status": "proved",
   "theorems": [
    "Verif.TProgress.C91_counts",
    "Verif.TProgress.C91_exact",
    "Verif.TProgress.C91_twice"
   ],
   "note": "For all sequences of blocks with non-decreasing counters (C91_counts), exactly all if consecutive (C91_exact); a surrogate given twice is counted twice (C91_twice)."
  },
  {
   "property": "C92",
   "status": "partial",
   "theorems": [
    "Verif.TProposal.C92_only_inside",
    "Verif.TProposal.C92_too_few",
    "Verif.TProposal.C92_untrained_refuted",
    "Verif.TProposal.C92_stale_refuted"
   ],
   "note": "If surrogate and then bounds are updated and at least d+1 points are inside, proposals depend on no other point (C92_only_inside); too few points raise (C92_too_few). Refuted for other orders: a new proposer updated with a surrogate only raises TypeError (C92_untrained_refuted), others propose from the points of the previous surrogate (C92_stale_refuted)."
  },
  {
   "property": "C93",
   "status": "proved",
   "theorems": [
    "Verif.TNora.C93_proposals"
   ],
   "note": "Every state, surrogate and number of processes, for calls that return."
  },
  {
   "property": "C94",
   "status": "proved",
   "theorems": [
    "Verif.TNora.C94_first_best",
    "Verif.TNora.C94_returns",
    "Verif.TNora.C94_processes"
   ],
   "note": "Samples in which points are told apart by their sets of coordinates, surrogates that predict numbers and whose acquisition does not grow by conditioning and is not +inf."
  },
  {
   "property": "C95",
   "status": "partial",
   "theorems": [
    "Verif.TNora.C95_ultranest_partial",
    "Verif.TNora.C95_ultranest_refuted",
    "Verif.TNora.C95_restored",
    "Verif.TNora.C95_not_restored_refuted"
   ],
   "note": "The order of points seen by UltraNest is the surrogate's if no finite prediction is below the replacement of -inf (-1e-300); refuted otherwise, and minus_inf_value is not restored if a prediction raises. PolyChord and Nessai get the prediction by definition of the model."
  },
  {
   "property": "C96",
   "status": "proved",
   "theorems": [
    "Verif.TLinAlg.C96_believer",
    "Verif.TPsd.C96_kernels"
   ],
   "note": "Over the real numbers, for every symmetric kernel, training set, appended points and noise, whenever both models can be computed: values equal to the predicted mean (before clipping) leave the mean unchanged at every point. C96_kernels: for all kernels of MKernel."
  },
  {
   "property": "C97",
   "status": "partial",
   "theorems": [
    "Verif.TLinAlg.C97_correlated_refuted",
    "Verif.TLinAlg.C97_diagonal"
   ],
   "note": "True for diagonal covariance matrices (C97_diagonal, all dimensions). Refuted for correlated ones: the code multiplies by the Cholesky factor of the correlation matrix instead of solving with it (C97_correlated_refuted: covariance [[1,1/2],[1/2,1]], point (1,0): sqrt(5/4) instead of sqrt(4/3))."
  },
  {
   "property": "C98",
   "status": "partial",
   "theorems": [
    "Verif.TPsd.C98_positive",
    "Verif.TPsd.C98_surrogate_exists",
    "Verif.TPsd.C98_periodic_refuted",
    "Verif.TPsd.C98_with_noise",
    "Verif.TPsd.C98_root_refuted"
   ],
   "note": "Proved for RBF, Matern (nu 1/2, 3/2, 5/2), RationalQuadratic, ConstantKernel (value at least 0), WhiteKernel (noise at least 0), DotProduct, and ExpSineSquared in one dimension, and all their sums, products and natural powers, in every dimension, isotropic or not; also for all real powers at least 0 of products and powers of RBF, Matern 1/2, RationalQuadratic, ExpSineSquared in one dimension and positive constants: the quadratic form is never negative (C98_positive); with positive noise a surrogate can be computed for all training sets and its variances lie between 0 and the prior's (C98_surrogate_exists). C98_with_noise is the same for the matrix that has the noise of a WhiteKernel anywhere in the kernel on its diagonal. False for ExpSineSquared in two dimensions (C98_periodic_refuted) and for the square root of DotProduct (C98_root_refuted). Not covered: Matern with other nu, and real powers of Matern 3/2 and 5/2 and of sums."
  },
  {
   "property": "C99",
   "status": "proved",
   "theorems": [
    "Verif.TNsPrec.C99_default",
    "Verif.TNsPrec.C99_choice",
    "Verif.TNsPrec.C99_not_a_name",
    "Verif.TNsPrec.C99_live",
    "Verif.TNsPrec.C99_monotone",
    "Verif.TNsPrec.C99_others"
   ],
   "note": "The sampler asked for is used or an error raised (C99_default, C99_choice, C99_not_a_name: anything but a string is an AttributeError); live points are nlive_per_training per training point, at most the cap (C99_live), monotone (C99_monotone); the other settings of each sampler, and that setting them returns if max_ncalls is valid (C99_others). nlive_per_training and nprior_per_nlive are integers. nessai is never told max_ncalls (part of C99_others)."
  },
  {
   "property": "C100",
   "status": "partial",
   "theorems": [
    "Verif.TColl.C100_predictions",
    "Verif.TColl.C100_truth",
    "Verif.TColl.C100_truth_raises_refuted",
    "Verif.TColl.C100_check",
    "Verif.TColl.C100_check_hangs_refuted",
    "Verif.TColl.C100_gaussian_kl_refuted",
    "Verif.TColl.C100_verdict",
    "Verif.TColl.C100_progress",
    "Verif.TPar.C100_batch",
    "Verif.TPar.C100_batch_raises_refuted",
    "Verif.TPar.C100_fit",
    "Verif.TPar.C100_fit_raises_refuted",
    "Verif.TPar.C100_init",
    "Verif.TPar.C100_init_fails_refuted",
    "Verif.TPar.C100_pass",
    "Verif.TPar.C100_run",
    "Verif.TPar.C100_end_refuted",
    "Verif.TNoraPar.C100_nora",
    "Verif.TNoraPar.C100_nora_bounds_refuted"
   ],
   "note": "False: if one process raises where others do not, the others wait for ever: in the truth (C100_truth_raises_refuted), the optimiser of batch acquisition (C100_batch_raises_refuted), the fit (C100_fit_raises_refuted), NORA when it re-weights a sample without a point within the bounds (C100_nora_bounds_refuted), a criterion that communicates (C100_check_hangs_refuted), the mean of GaussianKL (C100_gaussian_kl_refuted), initial training, whenever it fails (C100_init_fails_refuted); and at the end of every run of several processes that stops at the maximum number of evaluations without having converged, unless the sampler raises at once (C100_end_refuted). What holds: predictions, truth, batches, NORA, fits, initial training, progress tables, verdict, passes and whole runs end in all processes with the results of the lockstep models whenever those succeed (C100_predictions, _truth, _batch, _nora, _fit, _init, _check, _verdict, _progress, _pass, _run), given that the acquisition engine, the callback, the criteria, the Monte Carlo sampler and the checkpoint do not fail ([harmless]). What processes do within the samplers, and the scattering of random seeds, are not modelled."
  },
  {
   "property": "C101",
   "status": "partial",
   "theorems": [
    "Verif.THyper.C101_rows",
    "Verif.THyper.C101_in_bounds",
    "Verif.THyper.C101_fit",
    "Verif.THyper.C101_history",
    "Verif.THyper.C101_too_many_rows_refuted",
    "Verif.THyper.C101_unusable_refuted"
   ],
   "note": "C101_history: after any history of fits (returning or raising) with an optimiser that stays in its box, all hyperparameters are inside the bounds given and fixed ones as given; hypotheses: kernel of listable classes (usable), positive bounds, one row or a row per component, initial values inside. C101_fit: a returning fit leaves them inside whatever they were before. Refuted: kernels with RationalQuadratic, ExpSineSquared or DotProduct can never be fitted (TypeError), nor one length scale with several rows of bounds."
  },
  {
   "property": "C102",
   "status": "partial",
   "theorems": [
    "Verif.THyper.C102_set_get",
    "Verif.THyper.C102_length",
    "Verif.THyper.C102_fixed",
    "Verif.THyper.C102_get_set",
    "Verif.THyper.C102_last",
    "Verif.THyper.C102_raise_refuted"
   ],
   "note": "Set/get, accepted lengths, fixed hyperparameters (also if it raises), last vector wins, all for every kernel tree with non-empty length scales (C102_length needs usable kernels and matching bounds, C102_get_set positive values). Refuted: a vector that is too long raises after it has changed the kernel."
  },
  {
   "property": "C103",
   "status": "partial",
   "theorems": [
    "Verif.THyper.C103_widths",
    "Verif.THyper.C103_nested",
    "Verif.THyper.C103_static",
    "Verif.THyper.C103_first",
    "Verif.THyper.C103_largest_refuted",
    "Verif.THyper.C103_documented_refuted",
    "Verif.THyper.C103_constant_refuted"
   ],
   "note": "Bounds are width/1000 and 100 width in each direction, whatever the current values, and stay so. Refuted: with one length scale the first width is used, not the largest; documented factors are different; a dynamic ConstantKernel raises TypeError."
  },
  {
   "property": "C104",
   "status": "partial",
   "theorems": [
    "Verif.TRefit.C104_interpolates",
    "Verif.TRefit.C104_no_new_points_refuted",
    "Verif.TRefit.C104_raised_refuted"
   ],
   "note": "A fit that returns, with points appended since the last update, leaves the exact posterior of the new kernel (interpolation at noiseless points). Refuted: a fit without new points returns with the old solution and the new kernel (mean 4 instead of 1 at a training point); likewise if the optimiser raises after evaluating."
  },
  {
   "property": "C105",
   "status": "partial",
   "theorems": [
    "Verif.THyper.C105_scales",
    "Verif.THyper.C105_one_dimension_refuted"
   ],
   "note": "Reported scales are within the requested ranges for every dimension and bounded optimiser if there is an X-preprocessor or more than one dimension. Refuted: in one dimension without X-preprocessor, scales raises TypeError."
  },
  {
   "property": "C106",
   "status": "partial",
   "theorems": [
    "Verif.TBatchIn.C106_plain",
    "Verif.TBatchIn.C106_prior",
    "Verif.TBatchIn.C106_trust_refuted",
    "Verif.TBatchIn.C106_whitening_refuted"
   ],
   "note": "Inside of the bounds asked for if there is no preprocessor (C106_plain); with Normalize_bounds inside of the prior, for any bounds asked for that lie in it (C106_prior). Any number of processes, restarts and points; optimiser and proposer stay in their box, results finite. Refuted: with Normalize_bounds, the preprocessor that the runner installs, transform_bounds answers the unit box for any bounds, so that any point of the prior outside of the trust region is returned by an optimiser that finds it better than the last training point (C106_trust_refuted); with Whitening also points outside of the prior (C106_whitening_refuted)."
  },
  {
   "property": "C107",
   "status": "partial",
   "theorems": [
    "Verif.TObjective.C107_right_iff",
    "Verif.TObjective.C107_right",
    "Verif.TObjective.C107_other_preprocessor",
    "Verif.TObjective.C107_scale_refuted",
    "Verif.TObjective.C107_no_preprocessor_refuted"
   ],
   "note": "Stationary kernel, Normalize_bounds, LogExp, one noise level, trained regressor, mean below the clipping ceiling, std above the noise level and not numerically 0. With the same preprocessor in regressor and acquisition (as Runner builds them) the gradient is right iff in each direction the reported derivative of the std is 0 or s(sd+n)=sd, s being the scale of the y-preprocessor and n the noise level: right without y-preprocessor and noise, wrong (scale_refuted, all s>1) with a y-preprocessor, as the factor s is applied twice. With another preprocessor in the acquisition (or none, its default) it is right iff the reported component is 0 or the widths agree (no_preprocessor_refuted, all widths other than 1)."
  },
  {
   "property": "C108",
   "status": "partial",
   "theorems": [
    "Verif.TNonlinear.C108_minus_inf",
    "Verif.TNonlinear.C108_value",
    "Verif.TNonlinear.C108_above",
    "Verif.TNonlinear.C108_increasing",
    "Verif.TNonlinear.C108_documented_refuted",
    "Verif.TNonlinear.C108_gradient_iff",
    "Verif.TNonlinear.C108_gradient_refuted",
    "Verif.TNonlinear.C108_noise_iff",
    "Verif.TNonlinear.C108_noise_once"
   ],
   "note": "Value, -inf, monotony, above LogExp: proved for every surrogate with non-negative std and noise. Refuted: the documented product orders points otherwise; the gradient, inherited from BaseLogExp, is right without noise exactly in the directions in which the std has derivative 0 (C108_gradient_iff), with noise exactly in those or if the noise level is one particular function of the std (C108_noise_iff), positive and unique for each std (C108_noise_once). One point at a time."
  },
  {
   "property": "C109",
   "status": "partial",
   "theorems": [
    "Verif.TAcqHyper.C109_only",
    "Verif.TAcqHyper.C109_get_set",
    "Verif.TAcqHyper.C109_set_get",
    "Verif.TAcqHyper.C109_length",
    "Verif.TAcqHyper.C109_leaf_atomic",
    "Verif.TAcqHyper.C109_leaf_free",
    "Verif.TAcqHyper.C109_names",
    "Verif.TAcqHyper.C109_shared_refuted",
    "Verif.TAcqHyper.C109_atomic_refuted",
    "Verif.TAcqHyper.C109_logexp_refuted",
    "Verif.TAcqHyper.C109_free_refuted"
   ],
   "note": "get_set: for composites in which no object occurs twice. set_get (when every free hyperparameter is a positive number), only, length: also with shared objects. leaf_atomic and leaf_free: for functions that are not composites. Refuted: shared objects (get_set), composites changed by a call that raises, theta and n_dims of LogExp without sigma_n (its default), fixed hyperparameters of composites listed as free."
  },
  {
   "property": "C110",
   "status": "proved",
   "theorems": [
    "Verif.TAcqHyper.C110_same",
    "Verif.TAcqHyper.C110_same_theta",
    "Verif.TAcqHyper.C110_equivalence",
    "Verif.TAcqHyper.C110_associative_refuted"
   ],
   "note": "Built-in classes; an integer and a float exponent are written as different. associative_refuted shows that the converse (same values, hence ==) fails."
  },
  {
   "property": "C111",
   "status": "proved",
   "theorems": [
    "Verif.TKl.C111_divergence",
    "Verif.TKl.C111_units",
    "Verif.TKl.C111_undefined"
   ],
   "note": "Over the real numbers: determinants that underflow in many dimensions are not covered. Invariance is proved for diagonal changes of scale with shifts, which is what changes of units are. Undefined for matrices of negative determinant (C111_undefined)."
  },
  {
   "property": "C112",
   "status": "proved",
   "theorems": [
    "Verif.TKl.C112_evals",
    "Verif.TKl.C112_evals_shift",
    "Verif.TKl.C112_samples",
    "Verif.TKl.C112_samples_scale",
    "Verif.TKl.C112_samples_inside",
    "Verif.TKl.C112_evals_inside",
    "Verif.TKl.C112_samples_semidefinite",
    "Verif.TKl.C112_evals_semidefinite"
   ],
   "note": "The theorems also say when the covariance is two-dimensional: not for a single parameter, see C113."
  },
  {
   "property": "C113",
   "status": "partial",
   "theorems": [
    "Verif.TDiag.C113_one_parameter_refuted",
    "Verif.TDiag.C113_one_parameter_error",
    "Verif.TDiag.C113_verdict",
    "Verif.TDiag.C113_verdict_nora",
    "Verif.TDiag.C113_divergence",
    "Verif.TDiag.C113_agreement_refuted",
    "Verif.TDiag.C113_kl_train_refuted",
    "Verif.TDiag.C113_run_refuted"
   ],
   "note": "Refuted in two ways. With one parameter np.cov returns a 0-dimensional array which np.linalg.inv refuses: the diagnosis always raises LinAlgError, no one-parameter run ends regularly unless it gives up, and GaussianKLTrain only records NaN. And 0 < credibility excludes perfect agreement. C113_verdict gives what holds for two or more parameters with an engine that has no samples of its own, C113_verdict_nora with one that has. A success of the second test always means a divergence below the dimension, never an infinite or undefined one (C113_divergence)."
  },
  {
   "property": "C114",
   "status": "partial",
   "theorems": [
    "Verif.TReuse.C114_at_most",
    "Verif.TReuse.C114_when",
    "Verif.TReuse.C114_floor_refuted",
    "Verif.TReuse.C114_each_sample_refuted",
    "Verif.TReuse.C114_one_parameter_refuted",
    "Verif.TReuse.C114_weights",
    "Verif.TReuse.C114_unchanged",
    "Verif.TReuse.C114_infinite_refuted"
   ],
   "note": "C114_at_most, C114_when, C114_weights, C114_unchanged: what holds. Violated by the code: the lower limit for the divergence never applies (C114_floor_refuted); max_reused counts over the whole run, not per sample (C114_each_sample_refuted); with one parameter no check ever succeeds (C114_one_parameter_refuted); a surrogate that is minus infinity at the whole sample ends the run with ZeroDivisionError (C114_infinite_refuted)."
  },
  {
   "property": "C115",
   "status": "partial",
   "theorems": [
    "Verif.TTrust.C115_points",
    "Verif.TTrust.C115_best",
    "Verif.TTrust.C115_ends",
    "Verif.TTrust.C115_region",
    "Verif.TTrust.C115_one_parameter_refuted",
    "Verif.TTrust.C115_small_factor_refuted"
   ],
   "note": "Proved for all inputs: C115_points (exactly the points less than the drop below the best, after the least number of steps of 0.1), C115_best, C115_ends, C115_region. Refuted: C115_one_parameter_refuted (with one parameter a single point is kept and the region has zero width), C115_small_factor_refuted (a factor below 1, which the documentation allows, leaves out the best training point). Not covered: the drop as a function of sigmas is arbitrary here (C116 has its properties)."
  },
  {
   "property": "C116",
   "status": "proved",
   "theorems": [
    "Verif.TCredible.C116_mass",
    "Verif.TCredible.C116_one",
    "Verif.TCredible.C116_zero",
    "Verif.TCredible.C116_monotone",
    "Verif.TCredible.C116_unbounded",
    "Verif.TCredible.C116_dimension",
    "Verif.TCredible.C116_drop",
    "Verif.TCredible.C116_negative",
    "Verif.TCredible.C116_alignment"
   ],
   "note": "Over the real numbers. chi2.cdf, chi2.isf and erfc are any functions that are what scipy documents, stated through integrals of the Gaussian over shells (scipy_ok); C116_scipy constructs such functions. Underflow of erfc (n above 38, where the code warns) is not modelled."
  },
  {
   "property": "C117",
   "status": "partial",
   "theorems": [
    "Verif.TBuild.C117_gpr",
    "Verif.TBuild.C117_gpr_name",
    "Verif.TBuild.C117_acquisition",
    "Verif.TBuild.C117_acquisition_name",
    "Verif.TBuild.C117_function_name",
    "Verif.TBuild.C117_function",
    "Verif.TBuild.C117_proposer",
    "Verif.TBuild.C117_criteria",
    "Verif.TBuild.C117_criteria_list",
    "Verif.TBuild.C117_criteria_default",
    "Verif.TBuild.C117_objects",
    "Verif.TBuild.C117_options_dropped_refuted",
    "Verif.TBuild.C117_other_entries_refuted",
    "Verif.TBuild.C117_none_refuted",
    "Verif.TBuild.C117_proposer_none_refuted",
    "Verif.TBuild.C117_list_refuted",
    "Verif.TBuild.C117_instance_refuted",
    "Verif.TBuild.C117_errors"
   ],
   "note": "Proved for all inputs: C117_gpr, C117_gpr_name, C117_acquisition, C117_acquisition_name, C117_function_name, C117_function, C117_proposer, C117_criteria, C117_criteria_list, C117_criteria_default, C117_objects, C117_errors (acquisition, acquisition function and criteria raise only ValueError, TypeError or, for empty dictionaries, IndexError). Refuted: C117_options_dropped_refuted (gp_acquisition={'LogExp': {'zeta': 0.1}} is the same as 'LogExp'), C117_other_entries_refuted, C117_none_refuted (documented gpr=None raises), C117_proposer_none_refuted, C117_list_refuted, C117_instance_refuted. What the classes do with their arguments is an arbitrary function."
  },
  {
   "property": "C118",
   "status": "partial",
   "theorems": [
    "Verif.TBuildRun.C118_dict",
    "Verif.TBuildRun.C118_name",
    "Verif.TBuildRun.C118_stored",
    "Verif.TBuildRun.C118_one",
    "Verif.TBuildRun.C118_default_refuted",
    "Verif.TBuildRun.C118_empty_refuted",
    "Verif.TBuildRun.C118_run_refuted"
   ],
   "note": "Proved: C118_dict, C118_name, C118_stored, C118_one. Refuted: C118_default_refuted and C118_empty_refuted (no sampler is stored and list({})[0] raises IndexError; after resuming _mc_options does not exist), C118_run_refuted (for all runs: a run without mc, or resumed, returns only if it gives up looking for new points, and has not converged)."
  },
  {
   "property": "C119",
   "status": "partial",
   "theorems": [
    "Verif.TCobaya.C119_options",
    "Verif.TCobaya.C119_verbosity",
    "Verif.TCobaya.C119_initialize_refuted",
    "Verif.TCobaya.C119_run_refuted",
    "Verif.TCobaya.C119_plots_refuted",
    "Verif.TCobaya.C119_files_refuted",
    "Verif.TCobaya.C119_no_output_refuted",
    "Verif.TCobaya.C119_nora_refuted"
   ],
   "note": "C119_options is for inputs with exactly one entry of options for the engine asked for, which has no key that itself starts with options_; C119_verbosity. The rest of the claim is false of the code: initialize always raises (C119_initialize_refuted), run and plots raise, tru.pkl is not listed, without output there is no folder, NORA is cited only if it is not used."
  },
  {
   "property": "C120",
   "status": "partial",
   "theorems": [
    "Verif.TSlices.C120_slices",
    "Verif.TSlices.C120_all",
    "Verif.TSlices.C120_type_error",
    "Verif.TSlices.C120_negative",
    "Verif.TSlices.C120_dict_refuted",
    "Verif.TSlices.C120_longer_refuted"
   ],
   "note": "Proved for points and bounds given as lists of the same length (C120_slices, C120_all, C120_type_error, C120_negative). Refuted: a non-empty dictionary always raises, since the names of the parameters are taken from the array of values (C120_dict_refuted); longer bounds are accepted and negative indices then get the wrong ones (C120_longer_refuted)."
  },
  {
   "property": "C121",
   "status": "partial",
   "theorems": [
    "Verif.TPlots.C121_dict",
    "Verif.TPlots.C121_list",
    "Verif.TPlots.C121_samples",
    "Verif.TPlots.C121_again",
    "Verif.TPlots.C121_caller_refuted",
    "Verif.TPlots.C121_missing_refuted",
    "Verif.TPlots.C121_getdist_refuted"
   ],
   "note": "Proved: dictionaries, lists and samples all give five values per parameter as stated (C121_dict, C121_list, C121_samples), and preparing again changes nothing (C121_again). Refuted: a dictionary without some parameter is changed for the caller (C121_caller_refuted); a parameter missing from samples raises AttributeError instead of the ValueError meant (C121_missing_refuted); without GetDist any reference is silently ignored (C121_getdist_refuted). GetDist's statistics are a parameter."
  },
  {
   "property": "C122",
   "status": "partial",
   "theorems": [
    "Verif.TPlots.C122_numbers",
    "Verif.TPlots.C122_volume",
    "Verif.TPlots.C122_densities",
    "Verif.TPlots.C122_integer_refuted",
    "Verif.TPlots.C122_centre_refuted"
   ],
   "note": "Proved: numbers (C122_numbers), densities if the largest distance is not an integer (C122_densities), volumes of balls in all dimensions by the recursion in the dimension (C122_volume). Refuted: with density, if the largest distance is an integer, IndexError (C122_integer_refuted); points that are all at the mean get no bin (C122_centre_refuted). The distances are any nonnegative reals. The gamma function is a parameter with its functional equation."
  },
  {
   "property": "C123",
   "status": "partial",
   "theorems": [
    "Verif.TPlots.C123_drawn",
    "Verif.TPlots.C123_ranges_refuted",
    "Verif.TPlots.C123_points"
   ],
   "note": "Proved: every training point is added, and the colours cover exactly the values of the finite ones (C123_drawn); which points are drawn for any ranges (C123_points). Refuted: the restriction to the ranges; the test of the ranges (logical_or) holds for all points, so points outside stretch the colours (C123_ranges_refuted). One parameter, where the code's squeeze changes shapes, is not modelled."
  },
  {
   "property": "C124",
   "status": "partial",
   "theorems": [
    "Verif.TSeed.C124_fresh",
    "Verif.TSeed.C124_one_process",
    "Verif.TSeed.C124_processes",
    "Verif.TSeed.C124_apart",
    "Verif.TSeed.C124_generator_refuted",
    "Verif.TSeed.C124_integer_refuted",
    "Verif.TSeed.C124_resumed_refuted",
    "Verif.TSeed.C124_same_seed_refuted"
   ],
   "note": "Proved: with an integer as seed or none and the regressor made by the runner no number is used twice in any history, any number of processes (C124_fresh), in one process also with a generator of the user's regressor or none (C124_one_process); generators depend on seed and rank only (C124_processes) and have nothing in common for other seeds or ranks (C124_apart), taking numpy's streams of different seed sequences as different. Refuted: a generator as seed in several processes (C124_generator_refuted); an integer random state in one process, where every fit restarts from the same points (C124_integer_refuted); runs resumed in several processes, where the first fit starts from the same points in all (C124_resumed_refuted); runs resumed with the same seed (C124_same_seed_refuted). Draws by the classifier count as draws of the regressor's generator."
  },
  {
   "property": "C125",
   "status": "partial",
   "theorems": [
    "Verif.TResume.C125_data",
    "Verif.TResume.C125_schedule_refuted",
    "Verif.TResume.C125_converged_refuted",
    "Verif.TResume.C125_exhausted"
   ],
   "note": "Proved: data and budget over any list of sessions (C125_data; acquisition returns at most n_points_per_acq points, one true function), nothing happens without budget (C125_exhausted). Refuted: the counter of iterations starts anew, so sessions shorter than fit_full_every never do a full fit, however many there are (C125_schedule_refuted); a converged run acquires again (C125_converged_refuted). Files are those of a complete save; crashes while saving are C58. Resumed runs that draw the final sample raise, see C118."
  },
  {
   "property": "C126",
   "status": "partial",
   "theorems": [
    "Verif.TFloat.C126_inside",
    "Verif.TFloat.C126_edge",
    "Verif.TFloat.C126_edge_exact",
    "Verif.TFloat.C126_edge_usual",
    "Verif.TFloat.C126_edge_refuted",
    "Verif.TFloat.C126_monotone",
    "Verif.TFloat.C126_to_unit",
    "Verif.TFloat.C126_shrink",
    "Verif.TFloatY.C126_round_trip",
    "Verif.TFloatY.C126_round_trip_refuted"
   ],
   "note": "In double precision (Flocq), per coordinate. Inside for all points below 1 (C126_inside, C126_monotone); at 1 exactly if rounded distance plus lower bound, rounded, is not above the upper bound (C126_edge), which holds if the distance is exact (C126_edge_exact): bounds from or to zero, symmetric, close, or whole numbers (C126_edge_usual). Not in general: bounds -4 and 0.2 (C126_edge_refuted); the code says it clips to the bounds but does not. Way back and shrink_bounds proved (C126_to_unit, C126_shrink). There and back: C126_round_trip; the upper bound may come back outside (C126_round_trip_refuted)."
  },
  {
   "property": "C127",
   "status": "partial",
   "theorems": [
    "Verif.TFloat.C127_keep",
    "Verif.TFloat.C127_keep_count",
    "Verif.TFloat.C127_keep_refuted",
    "Verif.TFloat.C127_agree",
    "Verif.TFloat.C127_agree_refuted"
   ],
   "note": "Proved in double precision: kept for distances up to 2^34 - 1 (C127_keep, C127_keep_count), not beyond (C127_keep_refuted: distance 1.7476e10); labels agree with a margin of 8 * 2^-53 times the magnitudes (C127_agree). Without margin they need not, and the assertion fails: values 0, -1e9, -1.8e10 with all three to be kept (C127_agree_refuted)."
  },
  {
   "property": "C128",
   "status": "partial",
   "theorems": [
    "Verif.TUnits.C128_units",
    "Verif.TUnits.C128_posterior",
    "Verif.TUnits.C128_candidates",
    "Verif.TUnits.C128_counter",
    "Verif.TUnits.C128_ultranest_refuted",
    "Verif.TUnits.C128_nora_refuted",
    "Verif.TUnits2.C128_acquisition",
    "Verif.TUnits2.C128_mean_refuted",
    "Verif.TUnits2.C128_prediction",
    "Verif.TUnits2.C128_no_preprocessor_refuted",
    "Verif.TUnitsRun.C128_run",
    "Verif.TUnitsRun.C128_reacting_runs"
   ],
   "note": "C128_units: every series of calls of the surrogate with default preprocessors (those that raise included) and all predictions; C128_run: whole runs (initial training, parallel fits, main loop), with an outside world that reacts in any way to the state of the run, in the same way in both units; C128_reacting_runs: such runs are runs of the model; C128_posterior, C128_candidates, C128_counter, C128_acquisition, C128_prediction for the other parts. Arithmetic is exact; the support vector classifier, decompositions and the optimiser are parameters which see only transformed data. Refuted where the code compares with absolute numbers or mixes parameters: C128_ultranest_refuted, C128_nora_refuted, C128_mean_refuted, C128_no_preprocessor_refuted."
  },
  {
   "property": "C129",
   "status": "proved",
   "theorems": [
    "Verif.TOrder.C129_exists",
    "Verif.TOrder.C129_model",
    "Verif.TOrder.C129_predict",
    "Verif.TOrder2.C129_history",
    "Verif.TOrder2.C129_default"
   ],
   "note": "C129_exists characterises when the decomposition succeeds; C129_model and C129_predict: exact arithmetic over the reals, any symmetric kernel. C129_history: histories of append_to_data and fit_gpr_hyperparameters, scalar noise, values without NaN; the classifier's SVC, the decomposition, the optimiser and percentiles are arbitrary functions that do not look at the order; C129_default shows the modelled default preprocessors, thresholds and trust region satisfy the requirements. Rounding is not modelled here."
  },
  {
   "property": "C130",
   "status": "proved",
   "theorems": [
    "Verif.TOrder.C130_evidence",
    "Verif.TOrder.C130_any_order"
   ],
   "note": "Exact arithmetic over the reals. The formula is that of sklearn's method, to which the wrapper passes its arguments; its gradient is not modelled."
  },
  {
   "property": "C131",
   "status": "proved",
   "theorems": [
    "Verif.TLaws.C131_linear",
    "Verif.TLaws.C131_uncertainty",
    "Verif.TLaws.C131_scale"
   ],
   "note": "Over the real numbers (no rounding), in the space of transformed values, before the clipping from above. The kernel is any symmetric function."
  },
  {
   "property": "C132",
   "status": "proved",
   "theorems": [
    "Verif.TLaws.C132_noise",
    "Verif.TLaws.C132_average",
    "Verif.TLaws.C132_repeats",
    "Verif.TLaws.C132_twice_without_noise"
   ],
   "note": "Over the real numbers (no rounding), for noise variances in the space of transformed values. In double precision the decomposition of a matrix with repeated noiseless points may succeed because of rounding."
  },
  {
   "property": "C133",
   "status": "proved",
   "theorems": [
    "Verif.TLaws2.C133_continuous",
    "Verif.TLaws2.C133_prior",
    "Verif.TLaws2.C133_default",
    "Verif.TLaws2.C133_kernels",
    "Verif.TLaws2.C133_far"
   ],
   "note": "Over the real numbers, for a point in the trust region that the classifier takes for finite. Continuity is proved for all kernels of the model except real powers of kernels that may be 0 or negative; kernels which do not vanish at large distances (constant and dot-product terms, periodic ones) are excluded from the second part."
  },
  {
   "property": "C134",
   "status": "partial",
   "theorems": [
    "Verif.TLie.C134_trained",
    "Verif.TLie.C134_lie",
    "Verif.TLie.C134_not_raised",
    "Verif.TLie.C134_batch",
    "Verif.TLie.C134_individual",
    "Verif.TLie.C134_pool",
    "Verif.TLie.C134_pool_once",
    "Verif.TLie.C134_individual_refuted"
   ],
   "note": "Proved for every kernel in exact arithmetic; partial because it is refuted for training points whose individual noise exceeds the average (C134_individual_refuted). The regressor has no classifier, or it accepts the lies; in the comparison of values the prediction is not clipped there and at the lie."
  },
  {
   "property": "C135",
   "status": "partial",
   "theorems": [
    "Verif.TReport.C135_partition",
    "Verif.TReport.C135_column",
    "Verif.TReport.C135_stale_refuted",
    "Verif.TReport.C135_only_infinite_refuted",
    "Verif.TReport.C135_predict",
    "Verif.TReport.C135_no_classifier",
    "Verif.TReport.C135_new_refuted"
   ],
   "note": "Proved: partition, data frame, number of predictions, no infinite points without a classifier. Refuted in the source: after appends that do not train the classifier, with only -inf, and for a new regressor (TypeError) (the reported threshold is C71, predictions without classifier C23). Columns of the data frame are modelled as points, not per coordinate."
  },
  {
   "property": "C136",
   "status": "partial",
   "theorems": [
    "Verif.TDiagCb.C136_others",
    "Verif.TDiagCb.C136_main_refuted",
    "Verif.TDiagCb.C136_model_refuted",
    "Verif.TDiagCb.C136_column",
    "Verif.TDiagCb.C136_column_generic",
    "Verif.TDiagCb.C136_column_refuted"
   ],
   "note": "Proved: other processes, what the column says (C136_column, C136_column_generic). Refuted in the source: the rest (C136_main_refuted, C136_model_refuted, C136_column_refuted). Drawing and printing are left out."
  },
  {
   "property": "C137",
   "status": "partial",
   "theorems": [
    "Verif.TEvals.C137_known",
    "Verif.TEvals.C137_initial_refuted",
    "Verif.TEvals.C137_last_refuted",
    "Verif.TEvals.C137_noise_refuted"
   ],
   "note": "C137_known: all runs (resumed, fresh, or with enough points), all ways to end. C137_initial_refuted: a failed initial training loses all its evaluations (at least max_initial per process). C137_last_refuted, C137_noise_refuted: a batch that append_to_data rejects before storing it is lost. Surrogates with fewer points than n_initial are covered by C50_duplicates_refuted."
  },
  {
   "property": "C138",
   "status": "partial",
   "theorems": [
    "Verif.TRef.C138_reference",
    "Verif.TRef.C138_prior",
    "Verif.TRef.C138_ref",
    "Verif.TRef.C138_outside_refuted",
    "Verif.TRef.C138_exchanged_refuted",
    "Verif.TRef.C138_names",
    "Verif.TRef.C138_unlimited",
    "Verif.TRef.C138_exchanged_draw"
   ],
   "note": "C138_reference, C138_prior, C138_ref, C138_names: all inputs (exact arithmetic for low + (high - low) u). C138_unlimited: without limits in some direction a draw raises OverflowError. C138_exchanged_draw: limits in the wrong order are left to numpy. C138_outside_refuted: a reference box that misses the prior is accepted and every point drawn from it has log-posterior -inf. C138_exchanged_refuted: the same for prior limits in the wrong order."
  },
  {
   "property": "C139",
   "status": "proved",
   "theorems": [
    "Verif.TReturns.C139_fresh",
    "Verif.TReturns.C139_resumed"
   ],
   "note": "For a fresh run the noise level is one number for all points (one level per point cannot be run at all: C137). The parts that are not modelled are assumed to return, see well_behaved, good_init and good_pass."
  },
  {
   "property": "C140",
   "status": "partial",
   "theorems": [
    "Verif.TParams.C140_get",
    "Verif.TParams.C140_set",
    "Verif.TParams.C140_unknown",
    "Verif.TParams.C140_again",
    "Verif.TParams.C140_apart",
    "Verif.TParams.C140_clone",
    "Verif.TParams.C140_no_zeta",
    "Verif.TParams.C140_atomic_refuted",
    "Verif.TParams.C140_new_part_refuted",
    "Verif.TParams.C140_given_refuted",
    "Verif.TParams.C140_clone_after_set_refuted",
    "Verif.TParams.C140_shared_refuted"
   ],
   "note": "All claims about reading, setting, unknown names, writing back and copies are proved, and that LogExp without zeta needs the dimension (C140_no_zeta); the five claims that do not hold are refuted (C140_*_refuted)."
  },
  {
   "property": "C141",
   "status": "partial",
   "theorems": [
    "Verif.TOwn.C141_unchanged",
    "Verif.TOwn.C141_kept",
    "Verif.TOwn.C141_given",
    "Verif.TOwn.C141_sample",
    "Verif.TOwn.C141_sample_options",
    "Verif.TOwn.C141_sample_refuted",
    "Verif.TOwn.C141_twice_refuted",
    "Verif.TOwn.C141_engine_refuted",
    "Verif.TOwn.C141_criterion_refuted"
   ],
   "note": "Runner: proved for all memories. Four refuted parts: generate_mc_sample, reuse of its dictionary, acquisition objects and convergence criteria made directly write into the given dictionaries."
  },
  {
   "property": "C142",
   "status": "partial",
   "theorems": [
    "Verif.TKernObj.C142_user",
    "Verif.TKernObj.C142_values",
    "Verif.TKernObj.C142_others",
    "Verif.TKernObj.C142_fitted_refuted",
    "Verif.TKernObj.C142_shared_refuted"
   ],
   "note": "Proved for surrogates made from kernels of the user, as a simulation by the value-level model of C101 and C102. Two refuted parts: kernels taken from kernel_ of another surrogate, and kernels in which one object occurs twice."
  },
  {
   "property": "C143",
   "status": "partial",
   "theorems": [
    "Verif.TFloatY.C143_round_trip",
    "Verif.TFloatY.C143_round_trip_scale",
    "Verif.TFloatY.C143_order",
    "Verif.TFloatY.C143_apart",
    "Verif.TFloatY.C143_inf",
    "Verif.TFloatY.C143_mean",
    "Verif.TFloatY.C143_infinite",
    "Verif.TFloatY.C143_exact_refuted",
    "Verif.TFloatY.C143_distinct_refuted",
    "Verif.TFloatY.C143_equal_refuted"
   ],
   "note": "Double precision with Flocq. C143_round_trip, C143_round_trip_scale: the errors; C143_order, C143_apart: order and distinct values; C143_inf, C143_mean; C143_infinite: infinite values do not change how the others are transformed. Refuted: exact round trip (C143_exact_refuted), distinct values stay distinct (C143_distinct_refuted), equal values are transformed to 0 (C143_equal_refuted: to -1 or NaN, depending on the value). What the surrogate computes between the two transforms is not part of it."
  },
  {
   "property": "C144",
   "status": "partial",
   "theorems": [
    "Verif.TFloatN.C144_ceil",
    "Verif.TFloatN.C144_floor",
    "Verif.TFloatN.C144_split",
    "Verif.TFloatN.C144_balanced",
    "Verif.TFloatN.C144_initial",
    "Verif.TFloatN.C144_iterations_left",
    "Verif.TFloatN.C144_n_correct",
    "Verif.TFloatN.C144_option",
    "Verif.TFloatN.C144_option_refuted",
    "Verif.TFloatN.C144_fraction",
    "Verif.TFloatN.C144_fraction_refuted"
   ],
   "note": "Double precision with Flocq; numbers below 2^53. C144_ceil, C144_floor, C144_split (the split of the code is that of C01, which assumes exact division), C144_balanced, C144_initial, C144_iterations_left, C144_n_correct, C144_option, C144_fraction. Refuted: decimal factors as written (C144_option_refuted, C144_fraction_refuted). Powers as in '2d^1.5' are not part of it (see C10)."
  },
  {
   "property": "C145",
   "status": "partial",
   "theorems": [
    "Verif.TKlMc.C145_defaults",
    "Verif.TKlMc.C145_mean",
    "Verif.TKlMc.C145_divergence",
    "Verif.TKlMc.C145_order",
    "Verif.TKlMc.C145_dropped",
    "Verif.TKlMc.C145_constant",
    "Verif.TKlMc.C145_weights",
    "Verif.TKlMc.C145_repeated",
    "Verif.TKlMc.C145_infinite",
    "Verif.TKlMc.C145_zero_weight_refuted",
    "Verif.TKlMc.C145_nan_refuted",
    "Verif.TKlMc.C145_negative_refuted"
   ],
   "note": "Over the real numbers with infinities and NaN. C145_defaults, C145_mean, C145_divergence (value, sign, equality case), C145_order, C145_dropped, C145_constant, C145_weights, C145_repeated, C145_infinite. Refuted: samples of weight 0 make no difference (C145_zero_weight_refuted), a number without finite logp (C145_nan_refuted), never negative (C145_negative_refuted)."
  },
  {
   "property": "C146",
   "status": "partial",
   "theorems": [
    "Verif.TNpErr.C146_restored",
    "Verif.TNpErr.C146_left",
    "Verif.TNpErr.C146_silent",
    "Verif.TNpErr.C146_kl_norm",
    "Verif.TNpErr.C146_kl_mc_refuted",
    "Verif.TNpErr.C146_reused_refuted"
   ],
   "note": "C146_restored, C146_left, C146_silent, C146_kl_norm: all programs, settings and flags. C146_kl_mc_refuted: kl_mc has no such block and depends on the settings. C146_reused_refuted: a NumpyErrorHandling object made before the user changes the settings undoes the change (GPry always makes it in the with statement). Threads are not modelled."
  },
  {
   "property": "C147",
   "status": "partial",
   "theorems": [
    "Verif.TRepro.C147_repeat",
    "Verif.TRepro.C147_diagnosis_refuted",
    "Verif.TRepro.C147_ultranest_refuted",
    "Verif.TRepro.C147_kl_refuted",
    "Verif.TRepro.C147_no_state_refuted",
    "Verif.TRepro.C147_no_seed_refuted"
   ],
   "note": "C147_repeat: any strategy, seeds, processes. Refuted: the final sample takes no seed, and if its diagnosis fails the run continues, so runs may differ beyond (C147_diagnosis_refuted); UltraNest (C147_ultranest_refuted, there is a warning); KL criteria with BatchOptimizer, whose chain takes no seed (C147_kl_refuted); a regressor passed as an object without random state in one process (C147_no_state_refuted); no seed (C147_no_seed_refuted). Assumed: everything but random numbers is deterministic (likelihood, optimiser, samplers given their seed)."
  },
  {
   "property": "C148",
   "status": "partial",
   "theorems": [
    "Verif.TAxes.C148_kernel",
    "Verif.TAxes.C148_gradient",
    "Verif.TAxes.C148_score",
    "Verif.TAxes.C148_solution",
    "Verif.TAxes.C148_mean",
    "Verif.TAxes.C148_std",
    "Verif.TAxes.C148_mean_gradient",
    "Verif.TAxes.C148_std_gradient",
    "Verif.TAxes.C148_distance_refuted",
    "Verif.TAxesKl.C148_divergence",
    "Verif.TAxesKl.C148_samples",
    "Verif.TAxesKl.C148_evals",
    "Verif.TAxesKl.C148_alignment",
    "Verif.TAxesKl.C148_diagnose",
    "Verif.TAxesNum.C148_in_bounds",
    "Verif.TAxesNum.C148_shrink",
    "Verif.TAxesNum.C148_trust",
    "Verif.TAxesNum.C148_candidates",
    "Verif.TAxesNum.C148_accepted"
   ],
   "note": "Kernels, scores, solutions, predictions and their gradients with Normalize_bounds (C148_kernel..C148_std_gradient, exact arithmetic); KL divergence, moments of samples, alignment, verdict on the final sample (C148_divergence..C148_diagnose, exact arithmetic, inverse assumed to be one); bounds, trust region, filter of candidates (C148_in_bounds..C148_accepted, machine numbers, any rounding). Refuted: gaussian_distance (C148_distance_refuted), which multiplies by the Cholesky factor of the correlations instead of its inverse. Not covered: Whitening, random draws, the optimiser of hyperparameters, the classifier."
  },
  {
   "property": "C149",
   "status": "proved",
   "theorems": [
    "Verif.TCritSave.C149_saves_invisible",
    "Verif.TCritSave.C149_resumed",
    "Verif.TCritSave.C149_saved_inert"
   ],
   "note": "Any sequence of checks, saves and interruptions (C149_saves_invisible, C149_resumed); no live function in what is saved (C149_saved_inert). Assumed: deepcopy and pickle reproduce the other attributes; the input is generated with a likelihood; the sampler does not keep and change it."
  },
  {
   "property": "C150",
   "status": "partial",
   "theorems": [
    "Verif.TNsRun.C150_returned",
    "Verif.TNsRun.C150_kept",
    "Verif.TNsRun.C150_independent",
    "Verif.TNsRun.C150_failed",
    "Verif.TNsRun.C150_ultranest",
    "Verif.TNsRun.C150_seed_refuted",
    "Verif.TNsRun.C150_ultranest_seed_refuted",
    "Verif.TNsRun.C150_shared",
    "Verif.TNsRun.C150_nessai",
    "Verif.TNsRun.C150_idle_refuted",
    "Verif.TNsRun.C150_stale_refuted"
   ],
   "note": "PolyChord: what is returned and stored (C150_returned), the evaluations kept and when (C150_kept), independence of earlier runs given a seed (C150_independent), nothing left after failures (C150_failed). UltraNest over histories (C150_ultranest). Refuted: without a seed PolyChord uses the seed of an earlier run (C150_seed_refuted); UltraNest gets no seed (C150_ultranest_seed_refuted); keep_all raises, losing the sample, if one process evaluated nothing (C150_idle_refuted); after a failure UltraNest keeps the old sample (C150_stale_refuted). nessai runs in the main process only here."
  },
  {
   "property": "C151",
   "status": "partial",
   "theorems": [
    "Verif.TNsNames.C151_polychord",
    "Verif.TNsNames.C151_ultranest",
    "Verif.TNsNames.C151_labels_refuted",
    "Verif.TNsNames.C151_nessai",
    "Verif.TNsNames.C151_renamed",
    "Verif.TNsNames.C151_repeated_refuted",
    "Verif.TNsNames.C151_number_refuted",
    "Verif.TNsNames.C151_empty_refuted",
    "Verif.TNsNames.C151_mixed"
   ],
   "note": "PolyChord gets the names and labels meant for every documented form (C151_polychord); UltraNest and nessai for names without labels (C151_ultranest, C151_nessai: own bounds, coordinates in order; C151_renamed: names do not matter). Mixed lists raise for PolyChord (C151_mixed). Refuted: pairs of name and label reach UltraNest and nessai as tuples (C151_labels_refuted); repeated names and too few names are accepted by nessai and the function gets points with too few coordinates, too many raise IndexError (C151_repeated_refuted, C151_number_refuted); the three treat an empty list differently (C151_empty_refuted)."
  },
  {
   "property": "C152",
   "status": "partial",
   "theorems": [
    "Verif.TFloatC.C152_top",
    "Verif.TFloatC.C152_not_below",
    "Verif.TFloatC.C152_default",
    "Verif.TFloatC.C152_bounded",
    "Verif.TFloatC.C152_one",
    "Verif.TFloatC.C152_two",
    "Verif.TFloatC.C152_unchanged",
    "Verif.TFloatC.C152_training",
    "Verif.TFloatC.C152_single_refuted"
   ],
   "note": "The ceiling is finite and exact up to three roundings (C152_top, C152_bounded); not below the best value if the spread of the values exceeds rounding errors (C152_not_below, C152_default), then nothing observed is lowered and what is cut stays at least as large as all training values (C152_unchanged, C152_training); always for the factors 1 (C152_one) and 2 (C152_two). Refuted for equal values: with the single value -63 or two values 15 the default ceiling is one rounding below it (C152_single_refuted)."
  },
  {
   "property": "C153",
   "status": "partial",
   "theorems": [
    "Verif.TCbSample.C153_asked",
    "Verif.TCbSample.C153_accepted",
    "Verif.TCbSample.C153_refused",
    "Verif.TCbSample.C153_case_refuted",
    "Verif.TCbSample.C153_runner",
    "Verif.TCbSample.C153_key_refuted",
    "Verif.TCbSample.C153_verbose_refuted"
   ],
   "note": "Proved: what the sampler gets is exactly the user's options plus the defaults not overridden, with the output asked for (C153_asked); when it succeeds if Cobaya works (C153_accepted) and what is refused (C153_refused); the runner passes names that are accepted (C153_runner). Refuted: \"MCMC\" or \"PolyChord\" in other case raise KeyError (C153_case_refuted); the sampler is listed under itself as the key, not its name (C153_key_refuted); verbose=None raises TypeError for mcmc without a valid covariance matrix (C153_verbose_refuted)."
  },
  {
   "property": "C154",
   "status": "partial",
   "theorems": [
    "Verif.TNsFile.C154_where",
    "Verif.TNsFile.C154_plain",
    "Verif.TNsFile.C154_distinct",
    "Verif.TNsFile.C154_default",
    "Verif.TNsFile.C154_saved",
    "Verif.TNsFile.C154_false_refuted"
   ],
   "note": "Proved: folder and name of the file (C154_where), always a proper file in that folder (C154_plain), distinct names up to .txt (C154_distinct), the default (C154_default), no other file changes and only the main process writes (C154_saved). Refuted: output=False, documented as no output, raises TypeError in the main process after the sample has been drawn, while other processes go on (C154_false_refuted)."
  },
  {
   "property": "C155",
   "status": "partial",
   "theorems": [
    "Verif.TMeanCov.C155_sample",
    "Verif.TMeanCov.C155_nora",
    "Verif.TMeanCov.C155_together",
    "Verif.TMeanCov.C155_raises",
    "Verif.TMeanCov.C155_criterion_refuted",
    "Verif.TMeanCov.C155_single",
    "Verif.TMeanCov.C155_checkpoint_refuted",
    "Verif.TMeanCov.C155_checkpoint"
   ],
   "note": "Proved: after a sample (C155_sample), with NORA (C155_nora), both from the same sample in all processes (C155_together), errors are passed on (C155_raises), a checkpoint with NORA (C155_checkpoint). Refuted: criteria are never consulted since the attribute is looked up in the list of criteria (C155_criterion_refuted; C155_single shows that a criterion itself would be used), nor for chains started from a checkpoint (C155_checkpoint_refuted)."
  },
  {
   "property": "C156",
   "status": "partial",
   "theorems": [
    "Verif.TRunFns.C156_point",
    "Verif.TRunFns.C156_agrees",
    "Verif.TRunFns.C156_list_refuted",
    "Verif.TRunFns.C156_outside_refuted",
    "Verif.TRunFns.C156_volume_refuted",
    "Verif.TRunFns.C156_cobaya",
    "Verif.TRunFns.C156_cobaya_outside_refuted",
    "Verif.TRunFns.C156_cobaya_refuted"
   ],
   "note": "Proved: a single point inside the bounds (C156_point), agreement with the true likelihood (C156_agrees; with a Cobaya model C156_cobaya). Refuted: logL with two or more points raises ValueError (C156_list_refuted); outside the bounds it is +infinity or NaN (C156_outside_refuted, C156_cobaya_outside_refuted); the runner has no log_prior_volume (C156_volume_refuted); logL_truth with a Cobaya model is a pair (C156_cobaya_refuted, given Cobaya's documented interface)."
  },
  {
   "property": "C157",
   "status": "partial",
   "theorems": [
    "Verif.TAcqEvals.C157_after",
    "Verif.TAcqEvals.C157_single",
    "Verif.TAcqEvals.C157_reported",
    "Verif.TAcqEvals.C157_others_refuted",
    "Verif.TAcqEvals.C157_right",
    "Verif.TAcqEvals.C157_before_refuted"
   ],
   "note": "Proved: one process (C157_single); the counters afterwards (C157_after); what is reported with several processes (C157_reported) and when it is right (C157_right). Refuted: with several processes only the evaluations of the main one count, once per process (C157_others_refuted), and those it made before, since the surrogate was shared, are counted again for each other process (C157_before_refuted)."
  },
  {
   "property": "C158",
   "status": "partial",
   "theorems": [
    "Verif.TPlotConv.C158_all",
    "Verif.TPlotConv.C158_trace",
    "Verif.TPlotConv.C158_evaluations_refuted",
    "Verif.TPlotConv.C158_hidden_refuted",
    "Verif.TPlotConv.C158_colors_refuted"
   ],
   "note": "Proved: all criteria are drawn if all have been computed and there are enough colours (C158_all), also in the trace (C158_trace). Refuted: another value of evaluations raises KeyError (C158_evaluations_refuted); criteria after one that has not been computed are missing, without error in the trace (C158_hidden_refuted); more criteria than colours raise IndexError (C158_colors_refuted)."
  },
  {
   "property": "C159",
   "status": "partial",
   "theorems": [
    "Verif.TPlotConv.C159_exponent",
    "Verif.TPlotConv.C159_plain",
    "Verif.TPlotConv.C159_zero_refuted"
   ],
   "note": "Proved for non-zero exponents of either sign (C159_exponent) and numbers without exponent (C159_plain). Refuted: an exponent of zero, which %e writes, is lost (C159_zero_refuted)."
  },
  {
   "property": "C160",
   "status": "partial",
   "theorems": [
    "Verif.TPlotRun.C160_written",
    "Verif.TPlotRun.C160_default",
    "Verif.TPlotRun.C160_only",
    "Verif.TPlotRun.C160_options",
    "Verif.TPlotRun.C160_direct",
    "Verif.TPlotRun.C160_isolated_refuted",
    "Verif.TPlotRun.C160_corner",
    "Verif.TPlotRun.C160_unknown_refuted",
    "Verif.TPlotRun.C160_empty_refuted",
    "Verif.TPlotRun.C160_iterations",
    "Verif.TPlotRun.C160_distances"
   ],
   "note": "Proved: exactly the plots asked for if none fails (C160_written, C160_default), only those if some do, without ending the run (C160_only), values of options (C160_options), corner plots do not affect others nor raise (C160_corner, C160_direct), names of files (C160_iterations, C160_distances). Refuted: plots after one that fails are not made (C160_isolated_refuted); an unknown option disables all plots, with a message in the log only (C160_unknown_refuted); an empty dictionary gives no plots (C160_empty_refuted)."
  },
  {
   "property": "C161",
   "status": "partial",
   "theorems": [
    "Verif.TCorner.C161_bounds",
    "Verif.TCorner.C161_bounds_dict",
    "Verif.TCorner.C161_missing_refuted",
    "Verif.TCorner.C161_default_refuted",
    "Verif.TCorner.C161_filled",
    "Verif.TCorner.C161_plot_mc",
    "Verif.TCorner.C161_training",
    "Verif.TCorner.C161_single",
    "Verif.TCorner.C161_added_refuted",
    "Verif.TCorner.C161_logp_refuted"
   ],
   "note": "Proved: parameters, bounds and labels in order (C161_bounds, C161_bounds_dict), filled contours (C161_filled), training points (C161_training), samples and training points of the plot of a run (C161_plot_mc, C161_single). Refuted: bounds given as a list raise ValueError if the last sample lacks one of the parameters (C161_missing_refuted); bounds without parameters raise TypeError (C161_default_refuted); an added sample that lacks a parameter removes it from the plot (C161_added_refuted); the log-posterior asked for by the plot of a run is never shown, since in its samples it is a derived parameter (C161_logp_refuted)."
  },
  {
   "property": "C162",
   "status": "partial",
   "theorems": [
    "Verif.TTruthGet.C162_function",
    "Verif.TTruthGet.C162_model",
    "Verif.TTruthGet.C162_dict",
    "Verif.TTruthGet.C162_refused",
    "Verif.TTruthGet.C162_raised_refuted",
    "Verif.TTruthGet.C162_rebuild"
   ],
   "note": "Proved: functions (C162_function), models and what is kept of them, the warning (C162_model), dictionaries (C162_dict), what is refused (C162_refused), checkpoints (C162_rebuild, assuming that Cobaya makes of the info of a model one with the same parameters, labels and bounds). Refuted: dictionaries for which Cobaya raises exceptions other than its LoggedError are not refused with TypeError, these are raised as they are (C162_raised_refuted)."
  },
  {
   "property": "C163",
   "status": "partial",
   "theorems": [
    "Verif.TKlMcmc.C163_precision",
    "Verif.TKlMcmc.C163_proposal",
    "Verif.TKlMcmc.C163_both",
    "Verif.TKlMcmc.C163_draws_refuted",
    "Verif.TKlMcmc.C163_parallel_refuted",
    "Verif.TKlMcmc.C163_parallel"
   ],
   "note": "Proved: limits and temperature (C163_precision), proposal (C163_proposal), both options refused (C163_both), the same options in all processes without an earlier sample (C163_parallel). Refuted: n_draws and n_draws_per_dimsquared have no effect (C163_draws_refuted); with an earlier sample the main process proposes with another covariance matrix than the others (C163_parallel_refuted)."
  },
  {
   "property": "C164",
   "status": "partial",
   "theorems": [
    "Verif.TShareConv.C164_new_run",
    "Verif.TShareConv.C164_resumed",
    "Verif.TShareConv.C164_first_refuted"
   ],
   "note": "Proved: new runs (C164_new_run) and those resumed after a check (C164_resumed), in any process, for any number of iterations. Refuted: resumed from the checkpoint saved after the initial training, every process but the main one raises IndexError in the first iteration if a criterion does not handle MPI (C164_first_refuted)."
  },
  {
   "property": "C165",
   "status": "partial",
   "theorems": [
    "Verif.TNoraDir.C165_folders",
    "Verif.TNoraDir.C165_distinct",
    "Verif.TNoraDir.C165_used",
    "Verif.TNoraDir.C165_random",
    "Verif.TNoraDir.C165_others",
    "Verif.TNoraDir.C165_kept",
    "Verif.TNoraDir.C165_new_refuted"
   ],
   "note": "Proved: the folders of any number of runs (C165_folders), all different (C165_distinct), used as they are by the interfaces (C165_used), for any form of the path; without a folder (C165_random); other processes (C165_others); files in the folder given are kept by the three samplers (C165_kept). Refuted: the subfolders are not checked to be new, so another object with the same folder uses the same ones, and UltraNest and Nessai delete whatever was in them (C165_new_refuted)."
  },
  {
   "property": "C166",
   "status": "partial",
   "theorems": [
    "Verif.TResumeIt.C166_numbers",
    "Verif.TResumeIt.C166_rows",
    "Verif.TResumeIt.C166_periods",
    "Verif.TResumeIt.C166_full",
    "Verif.TResumeIt.C166_never_refuted",
    "Verif.TResumeIt.C166_plots_refuted"
   ],
   "note": "Proved: numbers and rows of a run that is not stopped (C166_numbers), rows of any sequence of sessions (C166_rows), how many full fits a run that is not stopped has (C166_full), and that stops after multiples of both periods do not change the fits (C166_periods). Refuted: resumed runs count from 1 again, so there is never a full fit if every session stops before its first one (C166_never_refuted), and corner plots overwrite those of earlier iterations (C166_plots_refuted). The definitions of MResumeIt have not been mutated."
  }
 ]
}