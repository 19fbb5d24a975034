{"id": "C01", "title": "Work splitting is a balanced partition", "statement": "split_number_for_parallel_processes(n, p) returns p shares that add up to n, differ by at most one, and never increase with the rank.", "quantifier": "every number of tasks n and every number of processes p >= 1", "why_tests_cant": "only a few (n, p) pairs can be run, and p depends on the MPI launch", "anchors": ["gpry/mpi.py: split_number_for_parallel_processes"]}
{"id": "C02", "title": "Strided split and merge are inverse", "statement": "Scattering a list with step_split over all ranks and merging the pieces with merge_step_split gives back the same list, every element exactly once, for any number of ranks.", "quantifier": "every list and every number of processes >= 1", "why_tests_cant": "depends on the launch size, and on every residue of the length", "anchors": ["gpry/mpi.py: step_split, merge_step_split"]}
{"id": "C03", "title": "Parallel evaluation of the truth equals serial evaluation", "statement": "Evaluating the true log-posterior on a batch with any number of processes returns one value per point, in the order of the points, equal to the serial result, and every point is evaluated exactly once among the processes.", "quantifier": "every batch, every number of processes, every truth function", "why_tests_cant": "needs all communicator sizes and batch lengths, including batches shorter than the number of processes", "anchors": ["gpry/run.py: Runner._eval_truth_parallel", "gpry/mpi.py: split_number_for_parallel_processes"]}
{"id": "C04", "title": "The log-posterior is -inf outside the prior and loglike + logprior inside", "statement": "Truth.logp(X) is -inf for any point outside the closed prior box, without calling the likelihood; inside it is the likelihood plus minus the log of the prior volume.", "quantifier": "every box, every point (including NaN coordinates and the faces of the box), every likelihood", "why_tests_cant": "continuum of points; that the likelihood is not called is an effect on every execution", "anchors": ["gpry/truth.py: Truth.logp, Truth.logprior", "gpry/tools.py: is_in_bounds"]}
{"id": "C05", "title": "A saved truth can be rebuilt", "statement": "Rebuilding a Truth from its as_dict output gives a truth with the same bounds, parameters and log-posterior.", "quantifier": "every dimension, every likelihood signature (one array or one argument per parameter)", "why_tests_cant": "the wrapping depends on the inspected signature in every dimension; tests only use d >= 2", "anchors": ["gpry/truth.py: Truth.as_dict, get_truth", "gpry/tools.py: wrap_likelihood"]}
{"id": "C06", "title": "Bounds check is the closed box test", "statement": "is_in_bounds returns, per point, whether every coordinate lies in its closed interval; NaN coordinates are outside; wrong shapes are rejected.", "quantifier": "every list of points and bounds", "why_tests_cant": "continuum of inputs including NaN and infinities", "anchors": ["gpry/tools.py: is_in_bounds"]}
{"id": "C07", "title": "Candidate filter rejects repeated proposals and nothing else", "statement": "check_candidates accepts a proposed point exactly when it is not (to the rounding used) one of the training points nor equal to an earlier point of the same batch.", "quantifier": "every training set and every batch", "why_tests_cant": "the failing batches need particular coincidences between coordinates of different points", "anchors": ["gpry/tools.py: check_candidates", "gpry/run.py: Runner.run"]}
{"id": "C08", "title": "Shrunk bounds stay inside the prior and contain the samples", "statement": "shrink_bounds returns, per dimension, an interval inside the prior interval that contains every sample that lies in the prior, for any expansion factor >= 1.", "quantifier": "every bounds, samples and factor", "why_tests_cant": "continuum of inputs", "anchors": ["gpry/tools.py: shrink_bounds", "gpry/gpr.py: update_trust_region"]}
{"id": "C09", "title": "Dropping zero-weight samples keeps the arrays aligned", "statement": "remove_0_weight_samples removes exactly the zero-weight entries, in order, and the same entries from every companion array; companions that are None stay None, and lengths that differ are an error.", "quantifier": "every weight array and every list of companion arrays", "why_tests_cant": "alignment must hold for every position of the zeros", "anchors": ["gpry/tools.py: remove_0_weight_samples"]}
{"id": "C10", "title": "Dimension-scaled option strings are parsed as documented", "statement": "get_Xnumber maps 'Nd' / 'd' / 'Nda' option strings (number, letter d, optional power) to N*d**a, plain numbers to themselves, and rejects anything else.", "quantifier": "every option string and dimension", "why_tests_cant": "infinite language of option strings", "anchors": ["gpry/tools.py: get_Xnumber"]}
{"id": "C11", "title": "Bounds normalisation is invertible and maps the prior to the unit box", "statement": "For bounds with positive width, inverse_transform(transform(X)) = X, the prior box maps exactly onto the unit box, and scales are inverted consistently.", "quantifier": "every bounds with positive width and every point", "why_tests_cant": "continuum of inputs", "anchors": ["gpry/preprocessing.py: Normalize_bounds"]}
{"id": "C12", "title": "Target normalisation is invertible, order preserving and keeps infinities", "statement": "After fit on data with positive spread, inverse_transform(transform(y)) = y for finite y, transform is strictly increasing, -inf stays -inf, only finite values of the data determine the transform, and inverse_transform_scale is the derivative of inverse_transform.", "quantifier": "every fitted data set, every y", "why_tests_cant": "continuum of inputs and infinities", "anchors": ["gpry/preprocessing.py: Normalize_y, NormalizeChi2_y"]}
{"id": "C13", "title": "Preprocessing pipelines compose and invert", "statement": "A pipeline of invertible preprocessors is invertible: inverse_transform undoes transform for any sequence of stages, bounds are threaded through the stages in the same order as the data, and each stage is fitted to the output of the previous one.", "quantifier": "every list of stages", "why_tests_cant": "any number and order of stages", "anchors": ["gpry/preprocessing.py: Pipeline_X, Pipeline_y"]}
{"id": "C14", "title": "A failed whitening fit keeps the previous transform", "statement": "If a Whitening.fit cannot compute its transform, the transform applied afterwards is the one in force before the call.", "quantifier": "every history of fits, succeeding or failing at either stage", "why_tests_cant": "needs a fit that fails between two internal steps", "anchors": ["gpry/preprocessing.py: Whitening.fit"]}
{"id": "C15", "title": "Classifier labels agree with the threshold rule", "statement": "After fit, the stored labels of the training points are exactly 'finite and within the threshold of the best value'; prediction is all-True if the last fit saw only finite points, all-False if none, and otherwise the trained SVM's answer.", "quantifier": "every sequence of fits, every training set, threshold and trained SVM", "why_tests_cant": "histories: the flags of one fit may survive into the next", "anchors": ["gpry/svm.py: SVM.fit, SVM.predict, SVM.is_finite"]}
{"id": "C16", "title": "The full training set is the append log", "statement": "After any sequence of append_to_data calls that return, the full training set is the concatenation of all appended batches, in order, X and y aligned, and the reported number of points is their total number.", "quantifier": "every sequence of calls, batch sizes, flags, values", "why_tests_cant": "histories of calls", "anchors": ["gpry/gpr.py: append_to_data, n_total, X_train_all, y_train_all"]}
{"id": "C17", "title": "The GP training set is the in-threshold subset of the full set", "statement": "After any append_to_data that updates the model, the GP training set consists exactly of the points whose value is finite and within the threshold of the best one, in append order, with targets aligned.", "quantifier": "every sequence of calls", "why_tests_cant": "histories: the threshold moves when a new best point arrives, re-classifying old points", "anchors": ["gpry/gpr.py: append_to_data, X_train, y_train"]}
{"id": "C18", "title": "At least keep_min_finite points survive the threshold", "statement": "If there are k finite values in the full set then at least min(keep_min_finite, k) points, including the best one, are kept in the GP training set, whatever the threshold; and the kept set is upward closed in y.", "quantifier": "every data set, threshold and keep_min_finite", "why_tests_cant": "all data sets, with ties and infinities", "anchors": ["gpry/gpr.py: _diff_threshold_if_keep_n_finite, append_to_data"]}
{"id": "C19", "title": "A rejected append leaves the regressor unchanged", "statement": "If append_to_data raises because of invalid flags, mismatching X/y or an invalid noise level, the training sets, noise and fitted model are those before the call.", "quantifier": "every call with invalid arguments, in every state", "why_tests_cant": "needs every error path in every state", "anchors": ["gpry/gpr.py: append_to_data, _validate_noise_level"]}
{"id": "C20", "title": "Per-point noise levels stay aligned with the training points", "statement": "When noise levels are given per point, after any sequence of appends the noise array has one entry per training point, aligned with it.", "quantifier": "every sequence of appends with scalar or array noise", "why_tests_cant": "histories mixing scalar and array noise", "anchors": ["gpry/gpr.py: _update_noise_level, append_to_data"]}
{"id": "C21", "title": "Documented ways of appending and fitting are equivalent", "statement": "append(fit=True), append(fit=False) followed by fit_gpr_hyperparameters(), and append(fit=False) followed by append(None, None, fit=True) leave predictions in the same state.", "quantifier": "every data set and hyperparameter optimum", "why_tests_cant": "equivalence over all histories", "anchors": ["gpry/gpr.py: append_to_data, fit_gpr_hyperparameters, _update_model"]}
{"id": "C22", "title": "The cached inverse always matches data and hyperparameters", "statement": "After every returning public call, the cached solution used for predictions was computed for the current training set and current hyperparameters.", "quantifier": "every sequence of append_to_data / fit_gpr_hyperparameters calls", "why_tests_cant": "staleness needs a particular history", "anchors": ["gpry/gpr.py: _update_model, fit_gpr_hyperparameters, append_to_data"]}
{"id": "C23", "title": "Predictions respect classifier, trust region and clipping", "statement": "predict returns one value per query, -inf exactly for the queries classified infinite (or outside the trust region when not ignored), never more than the clipping ceiling, and non-negative standard deviations, 0 for the -inf queries.", "quantifier": "every regressor state and batch of queries", "why_tests_cant": "all batches with mixed classification", "anchors": ["gpry/gpr.py: predict, predict_std"]}
{"id": "C24", "title": "A deep copy predicts like the original", "statement": "A deep copy of the regressor gives the same predictions, and later appends to either do not change the other.", "quantifier": "every state and every later history of either object", "why_tests_cant": "aliasing shows only in particular histories", "anchors": ["gpry/gpr.py: __deepcopy__"]}
{"id": "C25", "title": "The best of all hyperparameter restarts is kept", "statement": "fit_gpr_hyperparameters keeps an optimum whose log-marginal likelihood is the best among all its restarts, and the parallel fit keeps the best among all processes, shared by all of them.", "quantifier": "every number of restarts, outcomes and processes", "why_tests_cant": "stochastic optimiser outcomes, ties, idle ranks", "anchors": ["gpry/gpr.py: fit_gpr_hyperparameters", "gpry/run.py: _fit_gpr_parallel"]}
{"id": "C26", "title": "The last appended points can be retrieved", "statement": "last_appended returns exactly the points of the last append call.", "quantifier": "every history, including an append of zero points", "why_tests_cant": "the empty append needs a particular history", "anchors": ["gpry/gpr.py: last_appended, last_appended_finite"]}
{"id": "C27", "title": "The noiseless surrogate interpolates its training data", "statement": "At a training location the predicted mean is the training value minus noise variance times the dual coefficient: with zero noise the surrogate interpolates exactly.", "quantifier": "every training set, kernel matrix and noise", "why_tests_cant": "all matrices", "anchors": ["gpry/gpr.py: _kernel_inverse, predict"]}
{"id": "C28", "title": "Conditioning on more points never increases the predicted variance", "statement": "With fixed hyperparameters, adding training points never increases the posterior variance at any location, and the posterior variance is non-negative.", "quantifier": "every positive-definite kernel, training set and query", "why_tests_cant": "a statement over all matrices; the ranking code relies on it for pruning", "anchors": ["gpry/gp_acquisition.py: RankedPool.add_one, RankedPool.sort", "gpry/gpr.py: predict_std"]}
{"id": "C29", "title": "The ranked pool is always sorted by conditioned acquisition", "statement": "After any sequence of additions, the conditioned acquisition values of the pool never increase down the list, empty slots come last, and the spare slot is marked as empty.", "quantifier": "every pool size, every sequence of added points, every surrogate and acquisition function", "why_tests_cant": "all insertion histories, with arbitrary conditioned values", "anchors": ["gpry/gp_acquisition.py: RankedPool.add_one, RankedPool.sort"]}
{"id": "C30", "title": "The pool holds only points that were offered, each at most as often as offered, with its own value", "statement": "After any sequence of additions every occupied slot of the pool holds an offered point together with the mean, sigma and acquisition value it was offered with; no point is duplicated.", "quantifier": "every sequence of additions", "why_tests_cant": "re-ordering of five parallel arrays under all histories", "anchors": ["gpry/gp_acquisition.py: RankedPool.add_one, RankedPool.sort"]}
{"id": "C31", "title": "Each pool entry is conditioned on exactly the points above it", "statement": "For every occupied slot the stored conditioned acquisition is at most the acquisition of that point under the surrogate augmented with the points above it; and the cached surrogates used to rank new points are those of the current pool.", "quantifier": "every sequence of additions", "why_tests_cant": "stale caches need particular histories", "anchors": ["gpry/gp_acquisition.py: RankedPool.cache_model, add_one, sort"]}
{"id": "C32", "title": "Adding a point to the pool terminates", "statement": "The re-ranking loop of add_one stops after at most pool-size+1 rounds, for any conditioned acquisition values, including NaN.", "quantifier": "every pool and point", "why_tests_cant": "non-termination cannot be observed by a test", "anchors": ["gpry/gp_acquisition.py: RankedPool.add_one"]}
{"id": "C33", "title": "Dropping empty slots keeps exactly the ranked points", "statement": "copy(drop_empty=True) has no empty slot and keeps every occupied one in order.", "quantifier": "every pool reachable by additions", "why_tests_cant": "full and partially filled pools", "anchors": ["gpry/gp_acquisition.py: RankedPool.copy"]}
{"id": "C34", "title": "Bulk addition fills the pool greedily", "statement": "add in bulk mode on an empty pool picks at each slot a remaining candidate of maximal acquisition conditioned on the slots above, and leaves the pool sorted when conditioning does not increase acquisition.", "quantifier": "every batch and pool size", "why_tests_cant": "all batches", "anchors": ["gpry/gp_acquisition.py: RankedPool.add_bulk"]}
{"id": "C35", "title": "Adding to a non-empty pool never discards a better point", "statement": "Adding a batch to a pool that already holds points keeps the pool sorted and drops only the worst ones, in every mode.", "quantifier": "every sequence of batches and modes", "why_tests_cant": "needs a second batch on a partially filled pool", "anchors": ["gpry/gp_acquisition.py: RankedPool.add, add_bulk"]}
{"id": "C36", "title": "Batch acquisition returns the requested number of points and leaves the surrogate untouched", "statement": "BatchOptimizer.multi_add returns exactly n_points points with their predictions, identical in all processes, each a best optimum among all processes; the training set of the passed regressor does not change.", "quantifier": "every n_points, number of processes, optimiser outcome", "why_tests_cant": "all communicator sizes and optimiser outcomes", "anchors": ["gpry/gp_acquisition.py: BatchOptimizer.multi_add"]}
{"id": "C37", "title": "NORA re-runs its Monte Carlo on schedule", "statement": "NORA generates a new nested sample exactly every mc_every calls or when forced, and otherwise re-weights the previous one.", "quantifier": "every sequence of calls, forced or not", "why_tests_cant": "schedules over histories", "anchors": ["gpry/gp_acquisition.py: NORA.multi_add, NORA.do_MC_sample"]}
{"id": "C38", "title": "Re-weighting a sample keeps it aligned and normalised", "statement": "Re-weighting a stored Monte Carlo sample multiplies each weight by exp(new - old) up to a common factor so that the largest weight is 1, removes zero-weight points, and keeps points, values, errors and weights aligned.", "quantifier": "every stored sample and new prediction", "why_tests_cant": "all samples, including -inf predictions", "anchors": ["gpry/gp_acquisition.py: NORA._reweight_last_MC_sample"]}
{"id": "C39", "title": "NORA does not propose a point twice", "statement": "A point already proposed in a previous call is not proposed again from a re-weighted sample, and no other point is excluded.", "quantifier": "every history of calls", "why_tests_cant": "needs coincidences between coordinates", "anchors": ["gpry/gp_acquisition.py: NORA.multi_add"]}
{"id": "C40", "title": "Convergence policies combine as documented", "statement": "The run converges at a check exactly when every necessary criterion holds and some sufficient one does (if there are any), monitored criteria have no influence, and a run with only monitored criteria never converges; a criterion that fails to compute counts as not converged.", "quantifier": "every list of criteria, policies and outcomes", "why_tests_cant": "all combinations of policies and outcomes", "anchors": ["gpry/run.py: _check_convergence_parallel", "gpry/convergence.py: ConvergenceCriterion"]}
{"id": "C41", "title": "A convergence check gives the same verdict in all processes", "statement": "The MPI-wrapped check returns the same result in every process, and raises ConvergenceCheckError in all of them if it failed (with ConvergenceCheckError) in any participating process.", "quantifier": "every number of processes and every combination of failures", "why_tests_cant": "failure in a subset of processes", "anchors": ["gpry/convergence.py: is_converged_MPIwrapped"]}
{"id": "C42", "title": "CorrectCounter counts consecutive correct predictions", "statement": "CorrectCounter converges exactly when the last evaluated finite points, over all batches, contain a final run of more than n_correct consecutive predictions within tolerance.", "quantifier": "every sequence of batches, truths and predictions", "why_tests_cant": "histories of arbitrary batches", "anchors": ["gpry/convergence.py: CorrectCounter"]}
{"id": "C43", "title": "CorrectCounter needs exactly n_correct correct predictions", "statement": "As documented, n_correct consecutive correct predictions are enough to converge.", "quantifier": "every sequence of batches", "why_tests_cant": "boundary over histories", "anchors": ["gpry/convergence.py: CorrectCounter.is_converged"]}
{"id": "C44", "title": "KL criteria converge only after the required number of consecutive small values", "statement": "GaussianKL declares convergence only if its last limit_times values are all below the limit in absolute value, and at least limit_times values were computed; the histories have one entry per call. GaussianKLTrain keeps the last mean and covariance that it could compute for the next comparison when a call fails.", "quantifier": "every sequence of calls, including failing ones", "why_tests_cant": "histories, short histories, NaN values", "anchors": ["gpry/convergence.py: GaussianKL, GaussianKLTrain, TrainAlignment"]}
{"id": "C45", "title": "DontConverge never converges", "statement": "With convergence disabled, no state makes the run converge.", "quantifier": "every history", "why_tests_cant": "universal over histories", "anchors": ["gpry/convergence.py: DontConverge", "gpry/run.py: _construct_convergence_criterion"]}
{"id": "C46", "title": "The evaluation budget is respected up to one batch", "statement": "Starting within budget, a run never performs more than max_total + n_points_per_acq - 1 posterior evaluations, and starts no acquisition once max_total or max_finite is reached.", "quantifier": "every truth, proposals, convergence outcomes", "why_tests_cant": "all executions of the loop", "anchors": ["gpry/run.py: Runner.run"]}
{"id": "C47", "title": "The evaluation budget is never exceeded", "statement": "A run never performs more than max_total evaluations of the posterior.", "quantifier": "every execution", "why_tests_cant": "overshoot depends on batch sizes", "anchors": ["gpry/run.py: Runner.run"]}
{"id": "C48", "title": "The learning loop terminates", "statement": "Each pass of the loop evaluates at least one new point or uses up one of the allowed resampling attempts, so the number of passes is bounded by a function of the options.", "quantifier": "every execution: proposals, truths, convergence outcomes", "why_tests_cant": "non-termination cannot be tested", "anchors": ["gpry/run.py: Runner.run"]}
{"id": "C49", "title": "Running a finished runner does nothing", "statement": "Calling run() again after it has run neither evaluates the posterior nor changes the state.", "quantifier": "every state after a run", "why_tests_cant": "all states", "anchors": ["gpry/run.py: Runner.run"]}
{"id": "C50", "title": "Initial training delivers the requested finite points or fails", "statement": "do_initial_training returns with at least n_initial finite training points or raises; it does not use more than max_initial evaluations.", "quantifier": "every proposer, truth, number of processes and pre-training", "why_tests_cant": "all random proposals and process numbers", "anchors": ["gpry/run.py: do_initial_training"]}
{"id": "C51", "title": "Hyperparameters are refitted on schedule", "statement": "In iteration i hyperparameters get a full refit iff i mod fit_full_every = fit_full_every - 1 and otherwise a simple one iff the same holds for fit_simple_every; the restarts of a full refit are split among the processes without loss; data are appended whatever happens.", "quantifier": "every iteration number and schedule", "why_tests_cant": "all schedules", "anchors": ["gpry/run.py: _fit_gpr_parallel"]}
{"id": "C52", "title": "Option validation admits only consistent budgets", "statement": "If the Runner accepts its options then 2 <= n_initial <= max_initial <= max_total, n_initial <= max_finite <= max_total, all positive, and n_points_per_acq is positive.", "quantifier": "every option dictionary, dimension and number of processes", "why_tests_cant": "all combinations of options", "anchors": ["gpry/run.py: _construct_options"]}
{"id": "C53", "title": "A convergence verdict survives only a passed diagnosis", "statement": "When run() ends with has_converged, the last convergence check held, and if Monte Carlo diagnosis was performed it passed.", "quantifier": "every execution", "why_tests_cant": "all executions", "anchors": ["gpry/run.py: Runner.run, diagnose_last_mc_sample"]}
{"id": "C54", "title": "Fiducial values always belong to the stored fiducial points", "statement": "After any sequence of set_fiducial_point / set_fiducial_MC calls, the stored log-posterior, log-likelihood and weights belong to the stored points.", "quantifier": "every sequence of calls", "why_tests_cant": "stale values need a second call", "anchors": ["gpry/run.py: set_fiducial_point, set_fiducial_MC"]}
{"id": "C55", "title": "Reading the last sample does not change it", "statement": "last_mc_samples never changes the stored sample, whatever its arguments.", "quantifier": "every argument combination and history", "why_tests_cant": "needs a second read after a particular first one", "anchors": ["gpry/run.py: last_mc_samples"]}
{"id": "C56", "title": "MC samples carry consistent logs", "statement": "In a generated MC sample log-likelihood + log-prior = log-posterior for every point, and the columns are aligned.", "quantifier": "every sampler output", "why_tests_cant": "all outputs", "anchors": ["gpry/run.py: generate_mc_sample", "gpry/mc.py: cobaya_generate_gp_model_input"]}
{"id": "C57", "title": "A checkpoint round-trips", "statement": "Reading a checkpoint written by save_checkpoint without interruption returns the saved objects, and check_checkpoint reports it as complete.", "quantifier": "every previous content of the folder, every object", "why_tests_cant": "all previous folder contents", "anchors": ["gpry/io.py: save_checkpoint, read_checkpoint, check_checkpoint"]}
{"id": "C58", "title": "A crash while saving never mixes two checkpoints", "statement": "If the process dies at any point during save_checkpoint over an existing checkpoint, a later resume sees either the old or the new checkpoint, or detects that it is incomplete.", "quantifier": "every crash point", "why_tests_cant": "crash points", "anchors": ["gpry/io.py: save_checkpoint, check_checkpoint"]}
{"id": "C59", "title": "Reading an incomplete checkpoint returns None for the missing parts", "statement": "As documented, read_checkpoint returns None for every missing file and the stored object for the others.", "quantifier": "every subset of files", "why_tests_cant": "64 subsets, two of them swapped", "anchors": ["gpry/io.py: read_checkpoint"]}
{"id": "C60", "title": "Resuming never silently restarts or overwrites", "statement": "With load_checkpoint='resume' a complete checkpoint is loaded and never replaced by a fresh run; with 'overwrite' it is never read; without the argument a checkpoint path is refused.", "quantifier": "every folder content and argument combination", "why_tests_cant": "all combinations", "anchors": ["gpry/run.py: Runner.__init__"]}
{"id": "C61", "title": "Proposed points lie in the prior", "statement": "Every point returned by a bounded proposer lies inside the bounds it was given. A proposal from centroids lies, in each dimension, between the values that the training points it is made from have there, as long as the kick is at most one.", "quantifier": "every random stream and proposer nesting", "why_tests_cant": "all random streams", "anchors": ["gpry/proposal.py: check_in_bounds, UniformProposer, PartialProposer, MeanCovProposer, CentroidsProposer"]}
{"id": "C62", "title": "The progress table has one row per iteration and counters add up", "statement": "After any sequence of recorded events the table has one row per started iteration, each value is recorded in the row of its own iteration, and values of earlier rows never change.", "quantifier": "every sequence of events", "why_tests_cant": "histories", "anchors": ["gpry/progress.py: Progress"]}
{"id": "C63", "title": "LogExp is -inf exactly where the surrogate is certain or infinite", "statement": "LogExp is -inf exactly if the predicted std does not exceed the noise level or the mean is not finite; otherwise it is 2*zeta*(mu - y_max) + log sqrt(std^2 - noise^2), strictly increasing in mean (zeta>0) and std.", "quantifier": "every mean, std and noise", "why_tests_cant": "continuum of inputs", "anchors": ["gpry/acquisition_functions.py: BaseLogExp.__call__, LogExp.f"]}
{"id": "C64", "title": "The reported gradient of LogExp is its derivative", "statement": "The gradient returned by LogExp is the derivative of the returned value with respect to the location.", "quantifier": "every differentiable surrogate", "why_tests_cant": "a gradient check at noise 0 does not see the error", "anchors": ["gpry/acquisition_functions.py: BaseLogExp.__call__"]}
{"id": "C65", "title": "Composite acquisition functions carry correct gradients", "statement": "For sums, products, powers and constants of acquisition functions whose gradients are correct, the reported gradient is the derivative of the reported value.", "quantifier": "every expression tree", "why_tests_cant": "all trees", "anchors": ["gpry/acquisition_functions.py: Sum, Product, Exponentiation, ConstantAcqFunc"]}
{"id": "C66", "title": "Kernel gradients are the derivatives of the kernels", "statement": "gradient_x of every kernel and of every sum, product and power of kernels is the partial derivative of the kernel with respect to each coordinate of the query point, where it exists.", "quantifier": "every kernel expression, dimension, length scales and points", "why_tests_cant": "continuum of inputs; all expression trees", "anchors": ["gpry/kernels.py: RBF, Matern, RationalQuadratic, ConstantKernel, Sum, Product, Exponentiation"]}
{"id": "C67", "title": "Gathered arrays stay aligned", "statement": "Arrays gathered from all processes hold the processes' pieces in rank order: the k-th entry of process r lands at the same position in every gathered array, so that points and their values stay paired.", "quantifier": "every number of processes, of arrays and of entries per process", "why_tests_cant": "uneven pieces over any number of processes", "anchors": ["gpry/mpi.py: multi_gather_array"]}
{"id": "C68", "title": "CorrectCounter's value is the largest prediction error of the batch", "statement": "The value recorded at each call of CorrectCounter is the largest absolute difference between prediction and truth among the finite points of the batch.", "quantifier": "every batch of points and state of the criterion", "why_tests_cant": "depends on the relation of differences and tolerances over all batches", "anchors": ["gpry/convergence.py: CorrectCounter.criterion_value"]}
{"id": "C69", "title": "A fixed whitening transform can be undone and its bounds enclose the transformed box", "statement": "A Whitening built with a fixed covariance (not learnt) whose decomposition succeeded maps any point to a point from which inverse_transform recovers it, and transform_bounds of any box contains the transform of every point of the box.", "quantifier": "all dimensions, means, covariances with invertible decomposition, boxes and points", "why_tests_cant": "Tests try one covariance; the enclosure of the rotated box must hold for every point and rotation in every dimension.", "anchors": ["gpry/preprocessing.py:Whitening.transform", "gpry/preprocessing.py:Whitening.inverse_transform", "gpry/preprocessing.py:Whitening.transform_bounds"]}
{"id": "C70", "title": "Predictions before the first append are those of the prior", "statement": "Before any point has been appended, predict returns the prior of the kernel: mean 0 and the kernel's standard deviation.", "quantifier": "every new regressor and batch of queries", "why_tests_cant": "the branch exists in the source and looks covered; that it cannot be reached is a fact about all states", "anchors": ["gpry/gpr.py: predict, __init__"]}
{"id": "C71", "title": "The reported absolute threshold is the one used", "statement": "A value is classified finite by is_finite exactly if it is at least abs_finite_threshold.", "quantifier": "every y-preprocessor, training set and value", "why_tests_cant": "depends on the offset learned by the preprocessor", "anchors": ["gpry/gpr.py: abs_finite_threshold, is_finite", "gpry/svm.py: abs_threshold"]}
{"id": "C72", "title": "The gradients returned by predict are those of its predictions", "statement": "The gradients of mean and standard deviation that predict returns are the derivatives of the returned mean and standard deviation with respect to the query.", "quantifier": "every pair of preprocessors and query", "why_tests_cant": "tests use few preprocessors; the claim is over all scalings", "anchors": ["gpry/gpr.py: predict"]}
{"id": "C73", "title": "Well-formed data are accepted", "statement": "Appending a non-empty batch of points with finite or -inf log-posteriors returns without raising, after any history of such calls.", "quantifier": "every history of appends, thresholds and preprocessors", "why_tests_cant": "whether the labels of regressor and classifier agree (they are asserted to be equal) depends on the whole history and the preprocessor", "anchors": ["gpry/gpr.py: append_to_data", "gpry/svm.py: fit"]}
{"id": "C74", "title": "The building-block acquisition functions return the documented value and its derivative", "statement": "Mu, Std, ExponentialMu, ExponentialStd and ExpectedImprovement return the documented function of mean and standard deviation (including the factor a), and with eval_gradient its derivative with respect to the location.", "quantifier": "every differentiable surrogate, location and parameter", "why_tests_cant": "continuum of surrogates; a test with a=1 or at a stationary point of the mean passes", "anchors": ["gpry/acquisition_functions.py: Mu, Std, ExponentialMu, ExponentialStd, ExpectedImprovement"]}
{"id": "C75", "title": "A sample read as a table keeps parameters, log-densities and weights apart", "statement": "last_mc_samples(as_pandas=True) returns a table with one column per parameter holding the coordinates of the points, the log-densities, and the weights (ones if the sampler gave none), whatever the parameter names.", "quantifier": "every sample, every list of parameter names", "why_tests_cant": "depends on the user's parameter names", "anchors": ["gpry/run.py: last_mc_samples"]}
{"id": "C76", "title": "Verbosity is translated for Cobaya without gaps", "statement": "get_cobaya_log_level returns a logging level for every verbosity, and more verbosity never means fewer messages.", "quantifier": "every verbosity", "why_tests_cant": "all numbers", "anchors": ["gpry/mc.py: get_cobaya_log_level"]}
{"id": "C77", "title": "Parallel chains start from the best training points, each from another one", "statement": "An MCMC of the surrogate started in process r begins at the (r+1)-th best training point; no two processes share a point, and processes beyond the number of training points draw from the prior.", "quantifier": "every training set and number of processes", "why_tests_cant": "needs many processes and ties", "anchors": ["gpry/mc.py: mcmc_info_from_run"]}
{"id": "C78", "title": "An invalid covariance matrix never reaches the sampler", "statement": "mcmc_info_from_run hands a covariance matrix to the sampler if and only if there is one and it is valid; a matrix passed by the user has precedence over those of a checkpoint.", "quantifier": "every matrix and verbosity", "why_tests_cant": "interplay with verbosity", "anchors": ["gpry/mc.py: mcmc_info_from_run, mc_sample_from_gp_cobaya"]}
{"id": "C79", "title": "The Cobaya model is the surrogate", "statement": "The model generated for Cobaya has one flat prior per parameter equal to its bounds, and its likelihood, given the parameters by name in any order, is the surrogate's prediction at that point plus the log-volume of the prior.", "quantifier": "every surrogate, bounds, parameter names and point", "why_tests_cant": "all points and orders", "anchors": ["gpry/mc.py: cobaya_generate_gp_model_input"]}
{"id": "C80", "title": "A nested sampler asked for by name is never replaced", "statement": "mc_sample_from_gp_ns uses the sampler it is told to use or raises; only when no sampler is named does it fall back from PolyChord to UltraNest.", "quantifier": "every name and set of installed samplers", "why_tests_cant": "depends on the installation", "anchors": ["gpry/mc.py: mc_sample_from_gp_ns"]}
{"id": "C81", "title": "The sample file of a nested sampler is complete and aligned", "statement": "The file written by mc_sample_from_gp_ns has one row per sample with its weight, minus its log-posterior and its coordinates, under the parameter names.", "quantifier": "every sample, with or without weights and names", "why_tests_cant": "all samples; sampler needed", "anchors": ["gpry/mc.py: mc_sample_from_gp_ns"]}
{"id": "C82", "title": "User-given samples are converted under their keys", "statement": "process_gdsamples returns samples under the same keys for file roots, GetDist samples and Cobaya sample collections.", "quantifier": "every dictionary", "why_tests_cant": "optional dependencies", "anchors": ["gpry/mc.py: process_gdsamples"]}
{"id": "C83", "title": "Conversion to GetDist keeps names, columns and bounds together", "statement": "samples_dict_to_getdist names every column rightly, gives each parameter its own bounds, and hands over weights and minus log-posteriors unchanged.", "quantifier": "every sample, names and bounds", "why_tests_cant": "all samples, constant columns", "anchors": ["gpry/mc.py: samples_dict_to_getdist"]}
{"id": "C84", "title": "Nested samplers stay within the prior", "statement": "The prior handed to the nested samplers covers exactly the bounds: UltraNest evaluates only points within them, nessai gives zero prior density to every point outside.", "quantifier": "every bounds and point, single or in batches", "why_tests_cant": "all points", "anchors": ["gpry/ns_interfaces.py: InterfaceUltraNest.set_prior, MyNessaiModel.log_prior"]}
{"id": "C85", "title": "Deleting sampler output deletes that output and nothing else", "statement": "delete_output removes the files of the last run, or of the given output root, and no others.", "quantifier": "every folder content and output root", "why_tests_cant": "all folder contents", "anchors": ["gpry/ns_interfaces.py: delete_output, process_out_dir"]}
{"id": "C86", "title": "Precision options are set as given", "statement": "set_precision sets exactly the options that were given, in units of the dimension where these apply, and leaves all others as they were; if it raises, nothing has changed.", "quantifier": "every set of options and history", "why_tests_cant": "all combinations", "anchors": ["gpry/ns_interfaces.py: InterfacePolyChord.set_precision, InterfaceUltraNest.set_precision, InterfaceNessai.set_precision"]}
{"id": "C87", "title": "Sampler output is read with weights, log-posteriors and points aligned", "statement": "The interfaces return, for each sample of the nested sampler, its point, log-posterior and weight at the same position.", "quantifier": "every number of samples and dimension", "why_tests_cant": "all sizes, including one sample", "anchors": ["gpry/ns_interfaces.py: run"]}
{"id": "C88", "title": "Objects passed explicitly are preferred to those in a checkpoint", "statement": "Loading a surrogate from a checkpoint together with explicitly passed acquisition, convergence, options or progress objects keeps the passed ones and takes only the others from the checkpoint.", "quantifier": "every subset of passed objects and every content", "why_tests_cant": "all combinations and contents, including empty ones", "anchors": ["gpry/io.py: ensure_gpr"]}
{"id": "C89", "title": "Synchronised progress tables agree among processes", "statement": "After Progress.mpi_sync all processes hold the same times (the largest), evaluation counts (the sum) and criterion (that of the first process) in the last row, a value recorded by one process only is taken over by all, earlier rows do not change, and synchronising twice is the same as once.", "quantifier": "every number of processes and table contents, including missing values", "why_tests_cant": "needs several processes and missing values", "anchors": ["gpry/progress.py: Progress.mpi_sync, _bcast_operation"]}
{"id": "C90", "title": "Timing totals are the sums of the recorded times", "statement": "The totals shown by plot_timing are the sums of all recorded times of each step.", "quantifier": "every history of iterations, including those that only re-sample", "why_tests_cant": "needs particular histories", "anchors": ["gpry/progress.py: Progress.plot_timing", "gpry/run.py: Runner.run"]}
{"id": "C91", "title": "Counted evaluations add up", "statement": "The counts of timed blocks are non-negative, add up to no more than the evaluations made by the surrogates, and to exactly them if the blocks cover everything.", "quantifier": "every sequence of blocks and surrogates", "why_tests_cant": "histories", "anchors": ["gpry/progress.py: TimerCounter"]}
{"id": "C92", "title": "Centroid proposals use the in-bounds training points of the current surrogate", "statement": "CentroidsProposer proposes from the training points of the surrogate it was last updated with that lie inside the bounds, if there are enough of them.", "quantifier": "every surrogate, bounds and order of updates", "why_tests_cant": "orders of calls; independence of other points", "anchors": ["gpry/proposal.py: CentroidsProposer"]}
{"id": "C93", "title": "NORA's proposals are points of its sample", "statement": "The points proposed by NORA are at most n_points rows of the current Monte Carlo sample (each at most as often as it is in the sample), returned with the surrogate's predictions at them and the acquisition values of those.", "quantifier": "every state, sample, surrogate and number of processes", "why_tests_cant": "alignment of arrays through splitting, ranking, gathering and merging for all samples", "anchors": ["gpry/gp_acquisition.py: NORA.multi_add, RankedPool"]}
{"id": "C94", "title": "NORA proposes the best point first", "statement": "The first point NORA proposes has the largest acquisition value among the points of the current sample not proposed before, whatever the number of processes, and a call whose sampler (or re-weighting) succeeds returns proposals.", "quantifier": "every history of calls, sample, surrogate whose acquisition does not grow by conditioning, number of processes", "why_tests_cant": "optimality over all samples and all partitions among processes", "anchors": ["gpry/gp_acquisition.py: NORA.multi_add, NORA._merge_pools"]}
{"id": "C95", "title": "Nested samplers see the surrogate's log-posterior", "statement": "The function handed to the nested samplers is the surrogate's prediction: points are ranked by it as by the surrogate, with points predicted infinite at the bottom, and evaluating it leaves the surrogate unchanged.", "quantifier": "every surrogate, pair of points and sampler", "why_tests_cant": "depends on the sign and size of log-posteriors and on exceptions", "anchors": ["gpry/gp_acquisition.py: NORA._do_MC_sample_ultranest, _do_MC_sample_polychord, _do_MC_sample_nessai"]}
{"id": "C96", "title": "Kriging-believer lies do not change the mean", "statement": "Appending any points with the value the surrogate predicts there, with fixed hyperparameters, leaves the predicted mean unchanged everywhere, whatever the noise assigned to them.", "quantifier": "every kernel, training set, appended points, noise and query", "why_tests_cant": "an identity between posteriors for all matrices and points", "anchors": ["gpry/gp_acquisition.py: BatchOptimizer.multi_add, RankedPool", "gpry/gpr.py: append_to_data, _update_model, _kernel_inverse"]}
{"id": "C97", "title": "gaussian_distance is the Mahalanobis distance", "statement": "gaussian_distance returns the distance to the mean in units of standard deviations, (v C^-1 v)^(1/2), for every covariance matrix.", "quantifier": "every point and covariance matrix", "why_tests_cant": "a continuum of matrices", "anchors": ["gpry/tools.py: gaussian_distance"]}
{"id": "C98", "title": "With positive noise there is always a surrogate, with non-negative variances", "statement": "Kernels built by sums, products and powers are positive definite: with positive noise levels, computing the surrogate never fails for any training points (even repeated) and hyperparameters, and predicted variances lie between 0 and the prior variance.", "quantifier": "every kernel expression, hyperparameters, dimension, training set and query", "why_tests_cant": "positive definiteness quantifies over all finite sets of points and all expression trees", "anchors": ["gpry/kernels.py: RBF, Matern, RationalQuadratic, ExpSineSquared, ConstantKernel, DotProduct, Sum, Product, Exponentiation", "gpry/gpr.py: _kernel_inverse, predict, predict_std"]}
{"id": "C99", "title": "NORA uses the sampler that was asked for, with the documented precision", "statement": "The nested sampler named at construction (in any capitalisation) is the one used, or an error is raised; by default PolyChord, else UltraNest. Each run gets nlive_per_training live points per training point, but at most nlive_max, never fewer for more training points; the other precision options reach the sampler as given, and those not given are left alone.", "quantifier": "every name, set of installed packages, set of options, dimension, training size and previous settings", "why_tests_cant": "all combinations of options and histories; most need samplers that are not installed", "anchors": ["gpry/gp_acquisition.py: NORA.__init__, _init_nested_sampler, update_NS_precision, do_MC_sample", "gpry/ns_interfaces.py: set_precision"]}
{"id": "C100", "title": "Processes never wait for each other for ever", "statement": "In a run with several MPI processes, every parallel step (predictions, truth evaluations, batch acquisition, fits, initial training, convergence checks, progress tables, passes of the loop, the whole run) is entered and left by all processes, which end with the same surrogate and the same decisions; if something fails, it fails in all of them instead of leaving some waiting.", "quantifier": "every number of processes, every split of the work, every run and every place at which one process raises", "why_tests_cant": "needs several processes, and a deadlock depends on which process raises where; a hanging test shows nothing about other sizes or histories", "anchors": ["gpry/mpi.py: bcast, gather, allgather, step_split, merge_step_split, multi_gather_array, sync_processes, share_attr, compute_y_parallel", "gpry/run.py: run, do_initial_training, _eval_truth_parallel, _fit_gpr_parallel, _share_gpr, _check_convergence_parallel, update_mean_cov, generate_mc_sample, diagnose_last_mc_sample", "gpry/convergence.py: is_converged_MPIwrapped, GaussianKL._get_new_mean_and_cov_from_mc", "gpry/progress.py: mpi_sync", "gpry/gp_acquisition.py: BatchOptimizer.multi_add, NORA.multi_add, _set_MC_sample, _reweight_last_MC_sample, _split_and_compute_acq, _gather_pools, _merge_pools"]}
{"id": "C101", "title": "Fitted hyperparameters stay inside the bounds that were given", "statement": "After any number of fits (which return or raise) with any optimiser that stays inside the box it is given, every hyperparameter of the kernel lies inside the bounds stated at construction, fixed ones have their original value, and the shape of the kernel (classes, options, number of length scales) is the same. A kernel built from the offered classes with valid bounds can be fitted.", "quantifier": "every kernel expression, bounds, optimiser, number of restarts, and history of fits", "why_tests_cant": "all kernel trees and all optimiser behaviours, including ones that raise in the middle", "anchors": ["gpry/kernels.py: Hyperparameter, Kernel.bounds, theta, set_params, hyperparameters", "gpry/gpr.py: fit_gpr_hyperparameters, log_marginal_likelihood, _constrained_optimization"]}
{"id": "C102", "title": "The vector theta of a kernel can be set and read without loss", "statement": "Setting kernel.theta and reading it gives the same vector; exactly the vectors with one entry per free hyperparameter are accepted; fixed hyperparameters never change; setting what was read changes nothing; only the last vector set matters; a vector that is rejected leaves the kernel as it was.", "quantifier": "every kernel expression and vector", "why_tests_cant": "nested kernels of any depth with any mixture of fixed, scalar and vector hyperparameters", "anchors": ["gpry/kernels.py: Kernel.theta, set_params, get_params, KernelOperator, Exponentiation"]}
{"id": "C103", "title": "Dynamic length-scale bounds come from the prior widths", "statement": "With length_scale_bounds='dynamic' each length scale is bounded by the width of the prior in its direction, times documented factors, and the bounds do not change during the run; with one length scale for all directions the largest width is used; all kernels accept 'dynamic'.", "quantifier": "every prior, dimension, nu, and history of fits", "why_tests_cant": "quantifies over priors, kernels and histories", "anchors": ["gpry/kernels.py: Kernel.bounds, RBF.__init__, Matern.__init__, ConstantKernel"]}
{"id": "C104", "title": "After a fit the surrogate is the Gaussian process of its current hyperparameters", "statement": "After a fit of the hyperparameters, predictions are those of a Gaussian process with the fitted kernel: the mean at a noiseless training point is its value. If the fit raises, predictions are those from before the fit.", "quantifier": "every kernel expression, training set, optimiser behaviour and history", "why_tests_cant": "all optimiser behaviours including raising, and fits without new points", "anchors": ["gpry/gpr.py: fit_gpr_hyperparameters, _update_model, log_marginal_likelihood, predict"]}
{"id": "C105", "title": "The reported output scale and length scales are those of the automatic kernel, within the requested ranges", "statement": "With the kernel built automatically, after a fit gpr.scales reports one output scale inside output_scale_prior and one length scale per dimension inside length_scale_prior times the width of the prior in that direction.", "quantifier": "every dimension, prior ranges, optimiser and fit", "why_tests_cant": "all dimensions and prior boxes, with any optimiser", "anchors": ["gpry/gpr.py: __init__ (kernel RBF / Matern), scales"]}
{"id": "C106", "title": "Batch acquisition proposes points inside of the bounds it is asked for", "statement": "BatchOptimizer.multi_add(gpr, n_points, bounds), with an optimiser and a proposer that do not leave the box they are given, returns points inside of bounds: inside of the prior, or of the trust region if there is one.", "quantifier": "every prior, trust region, preprocessor, regressor, acquisition function, optimiser that respects its box, number of points and processes", "why_tests_cant": "all optimisers, boxes and preprocessors; whether the optimum is outside of the trust region depends on the surrogate", "anchors": ["gpry/gp_acquisition.py: BatchOptimizer.optimize_acquisition_function, multi_add", "gpry/preprocessing.py: Normalize_bounds.transform_bounds, Whitening.transform_bounds", "gpry/run.py: multi_add(..., bounds=self.gpr.trust_bounds)"]}
{"id": "C107", "title": "The gradient given to the optimiser of the acquisition function is that of the objective it minimises", "statement": "In BatchOptimizer.optimize_acquisition_function, obj_func(t, eval_gradient=True) returns the value of minus the acquisition function at the point whose transformed coordinates are t, together with the derivatives of that value along the coordinates of t.", "quantifier": "every regressor trained with a stationary kernel, prior, preprocessors, noise level, data, zeta and point at which the prediction is smooth", "why_tests_cant": "the claim is an identity of derivatives for all data and points; the reported components look plausible, and a wrong one only slows down or misleads the optimiser", "anchors": ["gpry/gp_acquisition.py: BatchOptimizer.optimize_acquisition_function (obj_func)", "gpry/gpr.py: GaussianProcessRegressor.predict(return_mean_grad, return_std_grad)", "gpry/acquisition_functions.py: LogExp", "gpry/preprocessing.py: Normalize_bounds.inverse_transform"]}
{"id": "C108", "title": "NonlinearLogExp returns the logarithm of its documented product and its derivative", "statement": "NonlinearLogExp()(X, gp) is -inf where the mean is not finite or the standard deviation does not exceed the noise level, and elsewhere the logarithm of exp(2 zeta (mu - y_max)) (exp(sqrt(sigma^2 - sigma_n^2)) - 1), whichever branch of the numerically safe logarithm computes it; it is increasing in mean and standard deviation, above LogExp, orders points like the documented exp(2 zeta mu) exp(sigma - sigma_n), and with eval_gradient comes with its derivatives.", "quantifier": "every surrogate, point, zeta, noise level", "why_tests_cant": "a continuum of surrogates; two branches that must agree for all real arguments; an ordering of all pairs of points; derivatives", "anchors": ["gpry/acquisition_functions.py: NonlinearLogExp, BaseLogExp.__call__, _safe_log_expm1"]}
{"id": "C109", "title": "theta of an acquisition function reads and writes exactly its free hyperparameters", "statement": "For built-in acquisition functions and their sums, products and powers: after k.theta = t, k.theta is t; k.theta = k.theta changes nothing; fixed hyperparameters and objects outside of k never change; assigning a vector whose length is not n_dims raises and changes nothing; k.hyperparameters marks as free exactly those that theta has.", "quantifier": "every composite of built-in acquisition functions (any nesting, objects possibly shared), every hyperparameter value, every vector", "why_tests_cant": "all nestings and values; sharing of an object between operands; state left behind by a call that raises", "anchors": ["gpry/acquisition_functions.py: AcquisitionFunction.theta, hyperparameters, n_dims, get_params, set_params", "gpry/acquisition_functions.py: AcquisitionFunctionOperator, Exponentiation, BaseLogExp"]}
{"id": "C110", "title": "Equal acquisition functions are interchangeable", "statement": "If k == k' for acquisition functions (sums, products and powers of built-in ones), they have the same value and gradient at every point for every surrogate, and the same free hyperparameters up to order; == is an equivalence relation.", "quantifier": "every pair of composites, surrogate and point", "why_tests_cant": "all composites (up to swapping operands at any depth), all surrogates and points", "anchors": ["gpry/acquisition_functions.py: AcquisitionFunction.__eq__, AcquisitionFunctionOperator.__eq__, Exponentiation.__eq__"]}
{"id": "C111", "title": "The Gaussian KL is a divergence", "statement": "kl_norm(mean_0, cov_0, mean_1, cov_1) of two covariances (symmetric, positive semi-definite) is never NaN or negative; it is 0 exactly for equal means and covariances; it raises LinAlgError exactly if cov_1 is degenerate and is +inf exactly if only cov_0 is. Changing the units or origins of the parameters does not change it.", "quantifier": "every number of parameters, all means and covariances, degenerate ones included", "why_tests_cant": "an inequality over all positive definite matrices of all dimensions, and its equality case", "anchors": ["gpry/tools.py: kl_norm", "gpry/convergence.py: GaussianKL.criterion_value"]}
{"id": "C112", "title": "Mean and covariance of weighted samples", "statement": "mean_covmat_from_evals(X, logp) returns the mean and (biased) covariance with weights exp(logp - max), whatever underflows, and depends only on differences of logp; mean_covmat_from_samples(X, w) returns the weighted mean and unbiased covariance, does not depend on a common factor of the weights, and is not finite exactly if a single point has all the weight. Both means lie in every box that holds the points that count; both covariances are symmetric positive semi-definite.", "quantifier": "every set of points, log-probabilities and non-negative weights, every dimension", "why_tests_cant": "invariances and semi-definiteness over all samples and weights, including underflowing ones", "anchors": ["gpry/tools.py: mean_covmat_from_evals, mean_covmat_from_samples, remove_0_weight_samples"]}
{"id": "C113", "title": "The diagnosis of the final sample gives a sensible verdict", "statement": "Runner.diagnose_last_mc_sample returns a verdict for every Monte Carlo sample and training set, and the verdict is positive for a sample whose mean agrees with that of the training set.", "quantifier": "every number of parameters, sample, training set and engine", "why_tests_cant": "no test runs a one-parameter problem to the end, and exact agreement has probability zero in random tests", "anchors": ["gpry/run.py: Runner.diagnose_last_mc_sample", "gpry/run.py: Runner.run", "gpry/convergence.py: TrainAlignment.criterion_value_from_means_cov, GaussianKLTrain", "gpry/tools.py: mean_covmat_from_samples, mean_covmat_from_evals"]}
{"id": "C114", "title": "A sample drawn to check convergence is used again only while it still describes the surrogate", "statement": "With an acquisition engine that has no sample of its own, GaussianKL uses its last Monte Carlo sample again, with importance weights of the new surrogate, only if the approximation moved, by less than between the last two checks, and each sample at most max_reused times; a divergence below limit/100 (nothing new found) leads to a new sample once the values are below ten times the limit; a sample whose weights cannot be used makes the check fail, not the run.", "quantifier": "every sequence of checks, surrogates, samples and failures; every dimension", "why_tests_cant": "depends on the whole history of values and on the order of NaN's in it; tests see one or two checks", "anchors": ["gpry/convergence.py: GaussianKL._get_new_mean_and_cov, _get_new_mean_and_cov_from_mc, criterion_value, is_converged"]}
{"id": "C115", "title": "The trust region contains the best training points and lies inside of the prior", "statement": "With a trust region configured (`trust_region_factor` not None), `update_trust_region` uses all training points, or, with `trust_region_nstd`, those whose value differs from the best one by less than the drop of a Gaussian at that many sigmas; if those are fewer than d (or than all, if there are fewer) the number of sigmas is raised by 0.1 until they are not, and by no more steps than needed. The point with the highest value is always used, the loop ends whenever the drop is positive and unbounded in the number of sigmas, and with a factor of at least 1 the resulting box is a subset of the prior that contains all points used. It would be expected as well that the region has a positive size and that any positive factor (as documented) gives a region around the points; both fail.", "quantifier": "all dimensions, training sets, thresholds, factors and prior boxes", "why_tests_cant": "The loop's end depends on the values of all training points and on the function of the number of sigmas; a test sees a few sets in which one or two steps are enough.", "anchors": ["gpry/gpr.py:554-575 update_trust_region", "gpry/tools.py:100-118 nstd_of_1d_nstd, delta_logp_of_1d_nstd", "gpry/tools.py shrink_bounds"]}
{"id": "C116", "title": "Credible volumes in d dimensions hold the mass of the one-dimensional interval", "statement": "For n >= 0 and d >= 1, the volume of radius `nstd_of_1d_nstd(n, d)` of a Gaussian in d dimensions holds exactly the probability mass of the n-sigma interval in one dimension (so `credibility_of_nstd` of it, in d dimensions, is that of n in one), and no other radius does. The radius is n in one dimension, 0 for n = 0, strictly increasing in n and, for n > 0, in d, and takes every non-negative value. A point of a Gaussian is less than `delta_logp_of_1d_nstd(n, d)` below the maximum of the log-density exactly if it lies inside of that volume. A negative n gives NaN. The value of the TrainAlignment criterion is at least 1/1000 and less than 1, and is below a limit exactly if the mean of the training set lies inside of the volume with that mass around the mean of the sample.", "quantifier": "all real numbers of sigmas, all dimensions, all squared distances", "why_tests_cant": "Tests compare a few numbers with tables; monotonicity, uniqueness and the relation between dimensions are about a continuum of values of special functions.", "anchors": ["gpry/tools.py:100-126 nstd_of_1d_nstd, delta_logp_of_1d_nstd, credibility_of_nstd", "gpry/convergence.py:703-742 TrainAlignment"]}
{"id": "C117", "title": "Components given by name or dictionary are built from exactly what was given", "statement": "The regressor, acquisition object, acquisition function, initial proposer and convergence criteria of a `Runner` can be given as objects, names or dictionaries. Objects are used as they are. A name stands for the class of that name without arguments (for an acquisition function: the default engine with that function; for proposers in any case, with or without 'Proposer'). Arguments given in a dictionary reach the class unchanged, defaults are added only for those not given, and nothing else is passed; the number of optimiser restarts becomes the largest multiple of the number of processes not above it. Criteria are built in the order given, each with its own parameters. Nothing that was given is silently ignored, and what is documented as accepted is accepted.", "quantifier": "all names, dictionaries, dimensions and numbers of processes", "why_tests_cant": "The combinations of forms and keys are unbounded, and a dropped argument leaves a run that works, with other settings than those asked for.", "anchors": ["gpry/run.py:306-355 _construct_gpr", "gpry/run.py:357-404 _construct_gp_acquisition", "gpry/run.py:406-444 _construct_initial_proposer", "gpry/run.py:446-503 _construct_convergence_criterion", "gpry/gp_acquisition.py:51-78 GenericGPAcquisition.__init__"]}
{"id": "C118", "title": "The final sample is drawn with the sampler that was asked for, by default a nested sampler", "statement": "`generate_mc_sample` uses the sampler named in the call, or the one given to the `Runner` as `mc`, with exactly the options given; for 'nested' the number of live points is 50 times the dimension unless given. Without either the best available nested sampler is used, as documented, so that a run with default settings, or resumed from a checkpoint, ends with a sample.", "quantifier": "all samplers, options, dimensions and runs", "why_tests_cant": "The end of a run with default settings needs a complete run with a sampler; whether every run gets there is a statement about all runs.", "anchors": ["gpry/run.py:506-519 _construct_mc_options", "gpry/run.py:1594-1714 generate_mc_sample", "gpry/run.py:988-1060 end of run"]}
{"id": "C119", "title": "As a sampler of Cobaya, GPry runs with the options of the input and reports what it did", "statement": "The wrapper for Cobaya can be initialised with a valid input. The engine asked for in `gp_acquisition` gets the common options and those under `options_<engine>`, which take precedence; options of other engines and options left empty are not passed. `run` ends with a sample of the surrogate, plots are made if asked for, Cobaya is told about every file of a checkpoint so that it deletes them before a new run, and NORA is cited exactly if it is used. Verbosity grows as the level of the logger falls.", "quantifier": "all inputs, constructors of the runner, logger levels", "why_tests_cant": "The options are combinations of arbitrary dictionaries; that no input at all can be initialised is a statement about all inputs.", "anchors": ["gpry/cobaya.py:45-106 initialize", "gpry/cobaya.py:108-203 run, do_surrogate_sample, do_plots", "gpry/cobaya.py:230-316 get_checkpoint_dir_and_surr_prefix, output_files_regexps, is_nora", "gpry/run.py:197-215 Runner.__init__", "gpry/io.py:12-19"]}
{"id": "C120", "title": "Slices of a function go through the fiducial point along the parameters asked for", "statement": "`prepare_slices_func(func, X_fiducial, bounds, indices, n)` returns for each index asked for (all if none) `n` points that agree with the fiducial point in all other coordinates and cover the bounds of that parameter in equal steps, ends included, with the values of the function, NaN where it fails; a function that does not take such arguments is reported as TypeError. The fiducial point and the bounds can be lists or dictionaries with parameter names; bounds of another length are rejected.", "quantifier": "all functions, points, bounds, indices and numbers of points", "why_tests_cant": "That a whole documented form of input never works, and that slices are right in every dimension, are statements about all inputs.", "anchors": ["gpry/plots.py:49-61 param_samples_for_slices", "gpry/plots.py:64-162 prepare_slices_func"]}
{"id": "C121", "title": "References of plots have five values per parameter", "statement": "A reference given to the plotting functions as a list (one entry per parameter, in order), as a dictionary or as GetDist samples becomes a dictionary in which every parameter has five values: five given ones are kept, a single one becomes the central one with nothing around it, a parameter not given has none, and samples give their 95% and 68% limits around their mean. Entries of other parameters are kept, preparing it again changes nothing, the reference of the caller is not changed, parameters missing from the samples are reported as ValueError, and numbers can be used without GetDist.", "quantifier": "all parameter lists, references and entries", "why_tests_cant": "The forms of references mix freely, and changes of the caller's dictionary show only at the next use.", "anchors": ["gpry/plots.py:747-812 _prepare_reference"]}
{"id": "C122", "title": "The histogram of distances counts every point once, or divides by the volume of the shell", "statement": "`plot_distance_distribution` draws bins of one standard deviation up to the largest distance; without `density` each bin is as high as the number of points in it and each point is in exactly one bin; with `density` the height times the volume of the spherical shell is that number, where `volume_sphere` is the volume of a ball in that dimension. It works for all sets of points.", "quantifier": "all dimensions and sets of distances", "why_tests_cant": "Equality for all sets of reals, and the failing sets have measure zero.", "anchors": ["gpry/plots.py:958-1037 plot_distance_distribution", "gpry/tools.py:129-131 volume_sphere"]}
{"id": "C123", "title": "Triangle plots show the training points within their ranges", "statement": "`getdist_add_training` adds to the plot the training points, finite and infinite ones, within the ranges of the plot, and the colours cover exactly the values of the finite ones shown.", "quantifier": "all ranges, training sets and values", "why_tests_cant": "Whether some point is left out must be shown for all points and ranges.", "anchors": ["gpry/plots.py:556-676 getdist_add_training"]}
{"id": "C124", "title": "No random number is used twice", "statement": "The runner gives every process its own generator, made from the seed, so that over a whole run, in any number of processes, no random number is used twice: not by two processes, not by two fits of hyperparameters, not by a fit and a proposal. The generator of a process depends only on the seed and its rank. The same holds if a generator is given as seed, if the regressor has an integer as random state, and for resumed runs.", "quantifier": "all seeds, numbers of processes and histories of draws, fits and exchanges of the regressor", "why_tests_cant": "It is about all pairs of draws of all processes over all histories; that restart points coincide is invisible in results.", "anchors": ["gpry/mpi.py:31-53 get_random_generator", "gpry/gpr.py:542-552 set_random_state", "gpry/gpr.py:969-978 restarts", "gpry/run.py:749-756 _share_gpr", "gpry/run.py:262-263 resuming"]}
{"id": "C125", "title": "Interrupted runs continue when they are resumed", "statement": "However often a run is interrupted and resumed, the training set on disk is what was evaluated so far with its values, in order, but for at most one batch per interruption, and it respects the budget as one run would. Hyperparameters are refitted as often as the options ask for. A run that had ended, because it converged or had used its budget, does nothing more when it is resumed.", "quantifier": "all lists of sessions, interrupted at any point, all inputs of each pass", "why_tests_cant": "It quantifies over all points of interruption and numbers of sessions.", "anchors": ["gpry/run.py:262-286 Runner.__init__, resuming", "gpry/run.py:733-747 read_checkpoint, save_checkpoint", "gpry/run.py:812-1024 run", "gpry/run.py:1252-1260 _fit_gpr_parallel, schedule"]}
{"id": "C126", "title": "Points of the unit box are mapped into the prior, also after rounding", "statement": "In double precision, a point of the unit box without its upper faces is mapped inside the prior bounds; points of the prior are mapped into the unit box, in order and the bounds to 0 and 1; the box about training points contains them and lies in the prior. The point 1 is mapped inside as well, so that an optimum at the edge can be evaluated. A coordinate transformed to the unit box and back is the same up to rounding (5*2^-53 times its distance to the lower bound, 2^-53 times itself), in order, and inside of the prior again.", "quantifier": "all finite doubles as bounds whose distance is finite, all doubles in the unit interval, all factors from 1", "why_tests_cant": "Rounding errors show for particular bounds only; no sample of bounds and points covers the doubles.", "anchors": ["gpry/preprocessing.py:367-395 Normalize_bounds.transform, inverse_transform", "gpry/proposal.py:136-156 UniformProposer", "gpry/ns_interfaces.py:469-471 prior transform for UltraNest", "gpry/tools.py:262-289 is_in_bounds", "gpry/tools.py:307-362 shrink_bounds", "gpry/gp_acquisition.py:466-476 comment on clipping"]}
{"id": "C127", "title": "The classifier keeps the points asked for and agrees with itself, also after rounding", "statement": "In double precision, if the last of the points to be kept is at most 2^34 - 1 below the largest, all points not below it are classified as finite. The classification of the values and that of the transformed values with the transformed threshold agree for values that are not within rounding errors of the threshold, so that the assertion in append_to_data holds.", "quantifier": "all doubles as log-posteriors (or minus infinity), all thresholds, all means and standard deviations of magnitudes between 2^-500 and 2^500", "why_tests_cant": "It is about all roundings; failures need particular values of large magnitude.", "anchors": ["gpry/gpr.py:1475-1488 _diff_threshold_if_keep_n_finite", "gpry/svm.py:273-295 _is_finite_raw", "gpry/gpr.py:689-732 classification in append_to_data", "gpry/preprocessing.py:593-627 Normalize_y.transform, transform_scale"]}
{"id": "C128", "title": "Results do not depend on the units of the parameters nor on the normalisation of the likelihood", "statement": "Take the same inference problem in two forms: parameters x and a*x+b (a>0 for each parameter, bounds converted alike), log-likelihoods that differ by a constant c. With the default preprocessors (Normalize_bounds, Normalize_y or NormalizeChi2_y), after any series of calls of append_to_data and fit_gpr_hyperparameters with converted arguments, whether or not they raise: every call has the same outcome, the two GaussianProcessRegressors hold the same data in the two units, classify the same points as finite, and have the same hyperparameters; predict gives means that differ by c, and the same standard deviations; the trust region is the same box. The posterior that Truth.logp returns differs by one constant everywhere; check_candidates drops the same proposals; CorrectCounter counts the same; LogExp, NonlinearLogExp, ExpectedImprovement and what is composed of them rank points the same. Whole runs do the same too: if proposals, criteria and samplers react in the same way to the same state in the two units, Runner.run evaluates the same points in the same order, fits and checks at the same iterations, ends in the same way and leaves the same surrogate. It fails for UltraNest (-inf is replaced by a fixed number), for NORA's removal of points already proposed (coordinates of different parameters are compared), for acquisition functions of the mean itself, and without a y-preprocessor.", "quantifier": "for all changes of units with positive scales, all constants, all problems, all series of calls and all points of the right dimension", "why_tests_cant": "A test can compare a few pairs of runs in floating point, where equality holds only up to rounding; that every part (thresholds, classifier, trust region, clipping, fits) is equivariant for all units, constants and histories needs a simulation argument over all call sequences.", "anchors": ["gpry/gpr.py:554-753", "gpry/gpr.py:1022-1273", "gpry/preprocessing.py:311-411", "gpry/preprocessing.py:528-684", "gpry/truth.py:134-155", "gpry/tools.py:237-260", "gpry/tools.py:308-361", "gpry/convergence.py:841-872", "gpry/acquisition_functions.py:961-992", "gpry/gp_acquisition.py:787-796", "gpry/gp_acquisition.py:1024-1038"]}
{"id": "C129", "title": "Predictions do not depend on the order in which training points are given", "statement": "Two GaussianProcessRegressors that are given the same points, values and (scalar) noise in calls of append_to_data that list them in different orders, and fitted alike, end up with the same training set up to order, the same preprocessors, hyperparameters, score, trust region and classifier, and answer every call of predict, predict_std, predict_is_finite, is_finite and abs_finite_threshold alike; if the calls return for one order, they return for the other. The linear algebra has this property in exact arithmetic for every symmetric kernel: the decomposition succeeds for both orders or for none (namely if the kernel matrix plus noise is positive definite), mean, variance, standard deviation and log-marginal likelihood are the same, and dual coefficients move with their points.", "quantifier": "for all symmetric kernels, all training sets (values not NaN) and their permutations, all histories of calls, all points predicted at", "why_tests_cant": "A test compares a few permutations of a few sets up to rounding; invariance has to hold for every permutation, kernel, history of refits and every component that looks at the data (thresholds, label counts, medians, trust regions).", "anchors": ["gpry/gpr.py:554-753", "gpry/gpr.py:755-874", "gpry/gpr.py:883-1020", "gpry/gpr.py:1022-1352", "gpry/gpr.py:1475-1488", "gpry/svm.py:141-211", "gpry/preprocessing.py:528-684"]}
{"id": "C130", "title": "The score that hyperparameters are fitted to is the log-probability with which the surrogate predicts the data", "statement": "GaussianProcessRegressor.log_marginal_likelihood, for given hyperparameters, is the sum over the training points of the log-density of the value of the point under the Gaussian that the surrogate with the same hyperparameters, given the points before it, predicts there (predicted mean; predicted variance plus the noise of the point). It does not matter in which order the points are taken. It is -infinity if and only if the surrogate cannot be set up.", "quantifier": "for all symmetric kernels, all training sets with noise and values, all orders of their points", "why_tests_cant": "It relates two computations (prediction and the objective of the optimiser) for all kernels and data of any size; a test could compare a few cases up to rounding.", "anchors": ["gpry/gpr.py:876-881", "gpry/gpr.py:883-988", "gpry/gpr.py:990-1020", "gpry/gpr.py:1022-1273"]}
{"id": "C131", "title": "The surrogate combines training values linearly, and its uncertainty does not depend on them", "statement": "For given hyperparameters, training points and noise levels: whether the GaussianProcessRegressor can be set up does not depend on the values; the predicted standard deviations do not depend on the values; the predicted mean for the values a*y + b*z is a times that for y plus b times that for z, at every point. If values, noise and the amplitude of the kernel are multiplied by a common factor s, so are all predictions and their standard deviations, and the log-marginal likelihood changes by -n log(s), whatever the other hyperparameters. (In the transformed space, before clipping.)", "quantifier": "for all symmetric kernels, all training points, noise levels, values, coefficients, factors s > 0 and all points", "why_tests_cant": "An identity between several surrogates for all kernels and data of any size; tests compare a few up to rounding.", "anchors": ["gpry/gpr.py:990-1020", "gpry/gpr.py:1178-1222", "gpry/gpr.py:1453-1465"]}
{"id": "C132", "title": "More noise means less certainty, and repeated evaluations of a point count as their average", "statement": "If the noise level of any training points is raised, the GaussianProcessRegressor can still be set up and its predicted standard deviation is nowhere smaller. Two values at the same point (anywhere among the training data) with positive noise lead to the same predictions everywhere (mean and standard deviation) as their mean with weights inverse to the noise variances, with the noise of that mean; n values at one point with equal noise lead to the same predictions as their average with 1/n of the variance. If a point occurs twice without noise the surrogate cannot be set up, even if the values agree. (In exact arithmetic.)", "quantifier": "for all symmetric kernels, all training sets with noise levels and values, all places of the repeated points", "why_tests_cant": "Inequalities and identities between surrogates for all kernels, training sets and points; a test sees a few of them up to rounding.", "anchors": ["gpry/gpr.py:990-1020", "gpry/gpr.py:1178-1222", "gpry/gpr.py:1453-1465", "gpry/gpr.py:700-760"]}
{"id": "C133", "title": "Predictions are continuous and return to the prior far away from the training points", "statement": "GaussianProcessRegressor.predict is continuous: if points approach a point (coordinate by coordinate), the means and standard deviations predicted for them approach those at that point, for all kernels (of which roots are only taken of positive numbers). If some coordinate of the points grows beyond all bounds, and the kernel is built from RBF, Matern (1/2, 3/2, 5/2), RationalQuadratic and WhiteKernel by sums, products, constant factors and natural powers (as the default one), the predicted mean approaches the centre of the normalisation - by default the mean of the training values, which is not below all of them - and the standard deviation that of the prior, whatever the training values and noise. (Before classifier and trust region.)", "quantifier": "for all such kernels and hyperparameters, all training sets, noise levels and values, all sequences of points", "why_tests_cant": "Limits along all sequences of points, for all kernels and training sets.", "anchors": ["gpry/gpr.py:1022-1273", "gpry/kernels.py:1-520"]}
{"id": "C134", "title": "No point is proposed twice", "statement": "With LogExp (or NonlinearLogExp) and one noise level, the acquisition function is -inf at every training point and, after a believed value (a lie) is added at a proposed point, at that point; a lie never raises the acquisition function where predictions are not clipped; hence the proposals of a batch with finite acquisition are pairwise different and differ from all training points. In NORA's pool, conditioning on further points never raises the acquisition value of a candidate. With individual noise levels this holds for the lies, but not for training points noisier than the average.", "quantifier": "every kernel, training set, preprocessing, noise, batch and query", "why_tests_cant": "inequalities between posteriors for all kernels, training sets and sequences of lies", "anchors": ["gpry/acquisition_functions.py: BaseLogExp.__call__", "gpry/gp_acquisition.py: BatchOptimizer.multi_add, RankedPool.cache_model", "gpry/gpr.py: append_to_data, predict"]}
{"id": "C135", "title": "Reports about finite points agree with the training set", "statement": "After every history of appends and fits with a classifier whose last append trained it, X_train_infinite and y_train_infinite exist, are aligned, and together with X_train and y_train are exactly the points ever appended; which part a point is in is decided by the threshold in use. training_set_as_df lists all points with their values and that classification. With a classifier predict_is_finite returns one label per point asked for. False: after an append that does not train the classifier the infinite points cannot be asked for (IndexError), and if only -inf was ever appended, training_set_as_df and is_finite raise TypeError.", "quantifier": "all preprocessors, classifiers, configurations, histories of calls and values", "why_tests_cant": "Partition and classification for all histories of appends.", "anchors": ["gpry/gpr.py:437-453", "gpry/gpr.py:490-497", "gpry/gpr.py:509-540"]}
{"id": "C136", "title": "The diagnosis callback reports on the run without stopping it", "statement": "gpry.diag.diagnosis, passed as callback, returns at once and changes nothing on processes other than the main one. False on the main process: for every runner it raises AttributeError (there is no attribute model), which ends the run, and without classifier it leaves the matplotlib backend switched; with such an attribute and a classifier it raises, too (is_finite is called without argument). The column GP of its table marks a point exactly if it has a coordinate in common with a point of the GP: right if no two training points share a coordinate, wrong otherwise, so that the test of consistency fails for consistent training sets.", "quantifier": "all runners, training sets, classifications, backends and results of drawing", "why_tests_cant": "All states of the runner and all training sets; the callback has no test and its failure does not depend on the state.", "anchors": ["gpry/diag.py:28-221", "gpry/run.py:942-953"]}
{"id": "C137", "title": "Every evaluation of the true posterior is learnt, exactly once, also when the run raises", "statement": "However a call of Runner.run ends, the training set of the surrogate (all points, finite or not) is the one before the call followed by the evaluated points, in the order of their evaluation, with their values: none is lost, none appears twice. Only if the run raises, the points of the very last evaluation may be missing, and then all of them: points and values stay aligned. A run that is called again after an exception goes on from there.", "quantifier": "for all options, numbers of processes, proposals, true posteriors, fits, callbacks, criteria, exceptions of any of these and numbers of iterations, for resumed runs, fresh runs, and runs whose surrogate already has enough points", "why_tests_cant": "It relates the log of evaluations to the state of the surrogate for every way in which a run may end, including exceptions at every point of every iteration", "anchors": ["gpry/run.py:776-1061", "gpry/run.py:1063-1198", "gpry/run.py:1238-1301", "gpry/gpr.py:577-753"]}
{"id": "C138", "title": "Initial points come from the user's reference box and are in the prior; names and labels are the user's", "statement": "The reference box of a Truth has, for each parameter, the limits that the user gave for it and those of the prior where they gave none. Whatever the random generator gives, Truth.prior_sample is a point of the prior, where the log-posterior is the likelihood minus the log-volume, and Truth.ref_sample is a point of the reference box, and of the prior if the box lies within it. A box without limits in some direction cannot be drawn from: OverflowError. Parameter names and labels are those passed; by default they are numbered from 1.", "quantifier": "for all likelihoods, boxes, references, names and numbers of the generator", "why_tests_cant": "It is about all draws of the random generator and all combinations of given and default limits", "anchors": ["gpry/truth.py:59-110", "gpry/truth.py:157-163"]}
{"id": "C139", "title": "A run in which nothing fails returns", "statement": "Runner.run(), started on a surrogate without points and one noise level for all of them, or resumed from a surrogate that has been trained, returns (it does not raise and does not loop for ever) and leaves a surrogate that can predict and be appended to, whenever the parts it calls work: acquisition, preprocessors, optimiser, criteria (a ConvergenceCheckError of a criterion is no failure), callback, Monte Carlo run and checkpoints return, true log-posterior values are finite or -inf (finite without the classifier). The only exception is an initial training that finds fewer values within the threshold than n_initial, which raises RuntimeError before the first acquisition.", "quantifier": "all numbers of processes, options, batches (of any size, also empty), values, fits with or without restarts, sequences of verdicts and diagnoses, of any length", "why_tests_cant": "a test runs a few problems; that no combination of rejected points, empty batches, skipped fits, failed criteria and diagnoses leads to an exception in the interplay of the parts is a statement about all of them", "anchors": ["gpry/run.py:776-1061", "gpry/run.py:1063-1301", "gpry/gpr.py:690-1010"]}
{"id": "C140", "title": "Parameters of acquisition functions by name", "statement": "get_params() of an acquisition function, composites included, lists exactly the constructor arguments of all acquisition functions it is made of, under the names path__to__argument, with the values that the objects have. set_params(name=value) with a listed name changes that attribute of that object and nothing else; with any other name it raises and changes nothing. set_params(**get_params()) changes nothing. clone leaves existing objects as they are and returns a copy made of new objects, of the same classes with the same values at the same names, and later calls of set_params on one of the two do not affect the other. It does not hold that calls that raise change nothing, that set_params(k1=new, k1__a=v) sets the parameter of the new part, that arguments given to the constructor can be read back (dimension), that functions can be copied after setting a listed parameter, or that copies of f + f behave as the original.", "quantifier": "for all acquisition functions of any nesting (sums, products and powers, also with shared parts), all names, all values, and all sequences of calls", "why_tests_cant": "The nesting depth, the names and the sequences of calls are unbounded; tests check a few.", "anchors": ["gpry/acquisition_functions.py:150-251", "gpry/acquisition_functions.py:906-941", "gpry/acquisition_functions.py:1205-1362"]}
{"id": "C141", "title": "Dictionaries that users pass to a run are left as they are", "statement": "Creating a Runner with dictionaries for gpr, gp_acquisition, initial_proposer, convergence_criterion, mc and options (nested, possibly shared between arguments) leaves every dictionary that existed before unchanged, whether it returns or raises; the mc and general options that the runner keeps have the given contents, and changing the user's dictionaries afterwards does not change them. Drawing an MC sample changes at most the entry nlive of the options of a nested sampler that did not have it, and the sampler gets all options that were given. (Refuted: that drawing a sample leaves the sampler's dictionary as it is, so that reusing it in another dimension keeps the first number of live points; that acquisition objects and convergence criteria created directly leave theirs as they are, so that a GaussianKLTrain created from the same dictionary in another dimension keeps the first limit.)", "quantifier": "all memories of dictionaries with arbitrary sharing, all arguments, all constructors' outcomes, all functions deepcopy that make new dictionaries of the same contents", "why_tests_cant": "A test uses some dictionaries without sharing and cannot cover all ways to alias or all points at which a construction raises.", "anchors": ["gpry/run.py:263-278", "gpry/run.py:306-519", "gpry/run.py:1629-1661", "gpry/gp_acquisition.py:51-78", "gpry/convergence.py:586-592", "gpry/convergence.py:690-697"]}
{"id": "C142", "title": "Kernels given by users are never changed and surrogates do not share hyperparameters", "statement": "Surrogates may be made from the same kernel object, from kernels that share parts, and by copying surrogates. Whatever is then done with them (fits with any optimiser, log-marginal likelihoods with or without clone_kernel, copies), in any order and also when calls raise, the kernel objects of the user stay as they are, each call returns or raises as if every surrogate had kernels of its own, each surrogate's kernel_ has the hyperparameters that its own history gives it, and calls on one surrogate leave the others as they are. (Refuted: the same for surrogates made from kernel_ of another surrogate; that a kernel in which an object occurs twice keeps equal hyperparameters in both places when it is fitted.)", "quantifier": "all memories of kernel objects (sums, products and powers of any nesting, with any sharing), all sequences of calls, all optimisers, starting points and bounds", "why_tests_cant": "The aliasing between kernels and surrogates and the histories are unbounded; tests make one surrogate from one kernel.", "anchors": ["gpry/gpr.py:364-375", "gpry/gpr.py:921-991", "gpry/gpr.py:1349-1363", "gpry/gpr.py:1406-1407", "gpry/kernels.py:601-700"]}
{"id": "C143", "title": "Normalising log-posteriors in double precision returns them up to rounding, in order", "statement": "With Normalize_y in IEEE double precision (mean up to 2^500 in size, standard deviation between 2^-500 and 2^500, finite values up to 2^500): inverse_transform(transform(y)) is finite and differs from y by at most 5*2^-53*|y - mean| + 2^-53*|y| + 2^-500, and inverse_transform_scale(transform_scale(s)) from s by at most 3*2^-53*|s| + 2^-500; y <= z implies transform(y) <= transform(z) and the same for the values transformed back; values further apart than 3*2^-53*(|y - mean| + |z - mean|) + 2^-500 have different transformed values; -inf is transformed to -inf and back to -inf, and the mean to 0 and back exactly. Not: that values come back exactly; that different values stay different (of -1e9, 1e-10, 2e-10 the last two are the same to the surrogate); that equal values are transformed to 0 (three times 0.1 gives three times -1, three times 1 gives NaN).", "quantifier": "all doubles mean, std and values in the stated ranges; the violations for concrete values", "why_tests_cant": "A test compares with a tolerance for some values; the bound, and that no rounding ever inverts an order, concern all doubles.", "anchors": ["gpry/preprocessing.py:571-630", "gpry/gpr.py:709", "gpry/gpr.py:746", "gpry/gpr.py:1185"]}
{"id": "C144", "title": "Counts computed with floating-point numbers are the exact ones", "statement": "Some counts are computed in double precision: n / n_proc with ceil and int in split_number_for_parallel_processes, the points per process and the passes of the initial training, the iterations announced, the default of n_correct. For whole numbers below 2^53 rounding never changes them: ceil(n / p) is the smallest q with n <= p*q, int(n / p) the floor, the split of work has one share per process that add up to n and differ by at most one, all processes together evaluate enough initial points with fewer than one per process too many, and the announced number of iterations is the smallest that uses up the budget. Options like '5d' with a whole number are exact; for other numbers, and for frac_training of TrainAlignment, the result is one of the two integers around the exact product of the doubles, and with frac_training between 0 and 1 never more than the training set, all of it for 1. Not: that it is the number written in decimal ('8.2d' with 15 parameters gives 122 instead of 123; 0.7 of 90 training points gives 62 instead of 63).", "quantifier": "all whole numbers below 2^53 and all finite doubles in the stated ranges; the violations for concrete values", "why_tests_cant": "Whether some pair of numbers is rounded across an integer concerns about 2^106 pairs; single tests pass even where the rule fails elsewhere (as for '8.2d').", "anchors": ["gpry/mpi.py:98-102", "gpry/run.py:817", "gpry/run.py:1099-1109", "gpry/convergence.py:700", "gpry/convergence.py:798", "gpry/tools.py:214-227"]}
{"id": "C145", "title": "The Monte Carlo estimate of the KL divergence is a divergence where the samples stand for the distribution", "statement": "tools.kl_mc(X, logq_func, logp, logp_func, weight): where logp and logq are finite it is the weighted mean of logp - logq; no weights means equal weights, logp_func is evaluated at X, and without logp and logp_func it raises ValueError. If the samples are the points of a distribution p with weights proportional to it, and the logs are those of p and of a density q that sums to at most 1, up to a common constant, the result is sum p ln(p/q): never negative, and 0 exactly if q = p. The order of the samples, a common factor of the weights, a common constant of both logs, and samples whose logp is not finite make no difference; a sample repeated n times counts as one of weight n. With positive weights it is +inf exactly if logq is -inf at a sample that counts, else finite. Not: that samples of weight 0 make no difference (NaN if logq is -inf there); that it is a number without any finite logp (NaN); that it is never negative for other samples.", "quantifier": "all lists of samples of any type of points, all functions logq, weights, constants", "why_tests_cant": "The invariances and the sign concern all samples and weights; tests compare with a known divergence for one sample within its statistical error.", "anchors": ["gpry/tools.py:39-63"]}
{"id": "C146", "title": "Numpy's handling of floating point errors stays as the user set it, and results computed with it switched off do not depend on it", "statement": "Blocks that switch off numpy's floating point errors (kl_norm, the runs of the nested samplers, the reweighting of NORA) leave the settings as they found them whatever happens inside: exceptions (which reach the caller unchanged), further blocks, changes of the settings by the user's likelihood. Inside nothing is printed and no FloatingPointError is raised, so the result, such as the divergence of two normal distributions, is the same for all settings of the user.", "quantifier": "for all settings, blocks, nestings, exceptions and floating point flags", "why_tests_cant": "It is about every settings of the user and every way out of a block", "anchors": ["gpry/tools.py:164-182", "gpry/tools.py:20-36", "gpry/ns_interfaces.py:211-218", "gpry/gp_acquisition.py:903-916"]}
{"id": "C147", "title": "Runs with the same seed are the same", "statement": "Two runs with the same seed (or the same generators), components and number of processes propose, evaluate and fit the same, whatever numpy's global generator and the operating system give, until the final sample is drawn: with BatchOptimizer and criteria other than the KL ones, or NORA with PolyChord, nessai or uniform samples, and a regressor built by the runner or with a random state of its own.", "quantifier": "for all seeds, components, likelihoods, numbers of processes and lengths of a run", "why_tests_cant": "It is about all sources of randomness outside of the seed, which a test in one environment does not vary", "anchors": ["gpry/run.py:152-155", "gpry/gp_acquisition.py:728-860", "gpry/convergence.py:330-338", "gpry/convergence.py:430-472", "gpry/tools.py:134-144", "gpry/svm.py:182-185", "gpry/gpr.py:542-552"]}
{"id": "C148", "title": "Results do not depend on the order in which the parameters are listed", "statement": "If the parameters are listed in another order (points, bounds, length scales and covariances reordered accordingly), then kernels, the score of hyperparameters, predictions, bounds checks, trust regions, the filter of candidates, the divergence of normal distributions, the alignment of means and the diagnosis of the final sample give the same, and gradients, means, covariances and bounds are reordered in the same way.", "quantifier": "for all dimensions, orders of the parameters, kernels, training sets, points, bounds, samples and weights", "why_tests_cant": "The number of orders grows factorially, and a test that permutes the parameters of one example cannot show that no kernel, point or covariance tells them apart", "anchors": ["gpry/kernels.py:39-340", "gpry/gpr.py:1011-1290", "gpry/preprocessing.py:325-423", "gpry/tools.py:20-97", "gpry/tools.py:237-361", "gpry/tools.py:400-440", "gpry/gpr.py:554-575", "gpry/convergence.py:703-707", "gpry/run.py:1747-1784"]}
{"id": "C149", "title": "Saving a convergence criterion does not change what it reports, and a loaded one continues where it was saved", "statement": "However often a run is saved between convergence checks, the Kullback-Leibler criterion gives the same verdicts as if it had never been saved. After an interruption the loaded criterion behaves as if exactly the checks made before the last save, and those made since loading it, had taken place. What is saved never contains a live function of a surrogate.", "quantifier": "for all sequences of checks, saves and interruptions, samples, surrogates, limits and failures of the sampler", "why_tests_cant": "Saving changes attributes of the original in place, so any order of failing checks, reused samples and saves could matter; tests try a few orders", "anchors": ["gpry/convergence.py:527-540", "gpry/convergence.py:325-328", "gpry/convergence.py:369-442"]}
{"id": "C150", "title": "Each run of a nested sampler stands alone", "statement": "A run of an interface to a nested sampler returns, in the main process, the sample of this run, stores exactly what it returns, and returns nothing in the other processes. With keep_all the evaluations kept are all those of all processes, each once, with their values. A run does not depend on earlier ones, is reproducible with a seed, and after a failed run no sample of an earlier one is left.", "quantifier": "for all numbers of processes, samplers, functions, earlier runs (also failed ones), seeds and folders", "why_tests_cant": "Tests run a sampler once in one process; what is left over from earlier or failed runs and what idle processes do depends on the history and on how the sampler distributes its work", "anchors": ["gpry/ns_interfaces.py:172-239", "gpry/ns_interfaces.py:335-405", "gpry/ns_interfaces.py:490-521"]}
{"id": "C151", "title": "Names of parameters do not change a nested sample", "statement": "Each documented form of param_names (none, names, pairs of name and label) is accepted by all interfaces to nested samplers: names and labels stored are those given, in order; the function sampled gets its coordinates in the order of the bounds, each within its own bounds, whatever the names are. Wrong lists of names (repeated, too many, too few) are refused.", "quantifier": "for all numbers of parameters, names, labels, bounds and points", "why_tests_cant": "Tests use generic names; the translation through dictionaries of names goes wrong only for particular lists (repeated names, labels, wrong lengths)", "anchors": ["gpry/ns_interfaces.py:229-233", "gpry/ns_interfaces.py:353-380", "gpry/ns_interfaces.py:504"]}
{"id": "C152", "title": "Clipping does not lower what was observed, in double precision", "statement": "The ceiling of predictions, clip_factor * max(y_train) - (clip_factor - 1) * min(y_train), computed in double precision is never below the best training value, so that predictions that reproduce training values are unchanged; what is cut is set to a value at least as large as all training values.", "quantifier": "for all training values and predictions as double-precision numbers and clip factors from 1 to 2", "why_tests_cant": "Rounding errors depend on every bit of the values; a test sees a handful of values", "anchors": ["gpry/gpr.py:1187-1194"]}
{"id": "C153", "title": "A Cobaya sample is drawn with the options asked for", "statement": "mc_sample_from_gp_cobaya gives Cobaya one sampler under the name asked for, with every option of the user as given, the documented default options for those not given (the covariance matrix with the names of its rows), and nothing else; earlier output is resumed or overwritten as asked, never both. The case of the name does not matter, any verbosity is accepted, and the information returned lists the sampler under its name.", "quantifier": "for all names of samplers, options, covariance matrices, names of parameters, verbosities, outputs and behaviours of Cobaya", "why_tests_cant": "Options, matrices and names come from three places and override each other; tests run one sampler with one set of options and do not look at what it was given", "anchors": ["gpry/mc.py:106-170", "gpry/mc.py:252-325"]}
{"id": "C154", "title": "The sample file is written where asked", "statement": "The sample of a nested sampler is written by the main process to the path asked for, in the folder of that path and under its last component with .txt added if it has no extension (mc_samples.txt in a folder given with a final slash; in chains/ of the checkpoint of a runner by default); no other file changes, different names give different files, and nothing is written if output is None without a checkpoint, or False.", "quantifier": "for all paths, checkpoints, files already there, contents and processes", "why_tests_cant": "Paths have many forms (relative, hidden, with dots, ending in slashes); tests use one, and no test passes output=False", "anchors": ["gpry/mc.py:432-455", "gpry/run.py:1622-1624", "gpry/run.py:1636-1637"]}
{"id": "C155", "title": "Mean and covariance matrix a run reports", "statement": "After a run, mean and cov of the runner are, in every process, those of the final sample if there is one, otherwise those of the last sample of the acquisition engine, otherwise those of a convergence criterion that has them (documented order); both come from the same sample, or neither is there. A chain started from a checkpoint gets the covariance matrix found in the same order.", "quantifier": "for all samples, engines, lists of criteria, processes and values reported before", "why_tests_cant": "Lookups with a default never fail: a source that is never found goes unnoticed, and tests do not look at mean and cov without a final sample", "anchors": ["gpry/run.py:1335-1352", "gpry/gp_acquisition.py:946-954", "gpry/mc.py:276-283"]}
{"id": "C156", "title": "Likelihood and posterior functions of a runner", "statement": "`logp` and `logL` of a runner give the surrogate posterior and likelihood at a point or a list of points, as an array (documented): inside the bounds the likelihood is the posterior divided by the prior density, so that where the surrogate agrees with the true posterior `logL` agrees with `logL_truth`; outside the bounds it is not infinite. `logL_truth` always returns a scalar. With a uniform prior, adding the runner's `log_prior_volume` to `logp` gives the likelihood (documented).", "quantifier": "for all likelihoods, bounds, surrogates, points and lists of points", "why_tests_cant": "No test calls these functions, least of all outside the bounds or with lists of points", "anchors": ["gpry/run.py:614-652", "gpry/truth.py:134-155", "gpry/truth.py:201-217"]}
{"id": "C157", "title": "Evaluations of the surrogate reported for an acquisition", "statement": "The number of evaluations of the surrogate that the progress table reports for an acquisition with BatchOptimizer is the number made in it by all processes together.", "quantifier": "for all numbers of processes, of points and of evaluations made by each process for each point, and all counters before", "why_tests_cant": "Counters are read nowhere in tests; with several processes the evaluations made elsewhere are not visible to the one that reports", "anchors": ["gpry/gp_acquisition.py:440-498", "gpry/run.py:836-880", "gpry/progress.py:102-126"]}
{"id": "C158", "title": "The convergence plot shows all criteria", "statement": "`plot_convergence` draws, for every criterion that has been computed, its values against the total (or accepted) number of evaluations and its limit, in a colour of its own, whatever the other criteria; the plot of the trace shows the same; a value of `evaluations` other than the documented ones raises ValueError.", "quantifier": "for all lists of criteria, histories, limits and values of `evaluations`", "why_tests_cant": "Missing curves raise no exception, and images are not compared in tests", "anchors": ["gpry/plots.py:679-744", "gpry/plots.py:850-860", "gpry/convergence.py:97-115"]}
{"id": "C159", "title": "Numbers in the texts of plots keep their value", "statement": "`simple_latex_sci_notation` turns a number in the format %g or %e into one with a power of ten of the same value: same digits, same exponent without zeros in front; a number without exponent is unchanged.", "quantifier": "for all digits, signs and exponents", "why_tests_cant": "The texts only appear in images", "anchors": ["gpry/plots.py:33-46"]}
{"id": "C160", "title": "Progress plots of a run", "statement": "With plots=True a run writes in each iteration the plots of timing, convergence and trace into the folder of images (of the checkpoint, if there is one); with a dictionary, exactly the plots it asks for, options left out having their default values, in the format asked for. A plot that fails neither ends the run nor affects the others. Corner plots of different iterations, and the two plots of distances, are different files.", "quantifier": "for all options, iterations, folders and failures of plots", "why_tests_cant": "Exceptions of plots are caught by the loop: missing files are only noticed by looking for them", "anchors": ["gpry/run.py:1011-1019", "gpry/run.py:1470-1592", "gpry/run.py:678-690", "gpry/run.py:1910-1925"]}
{"id": "C161", "title": "Triangle plots show what is asked for", "statement": "A triangle plot shows the samples given, in order, for the parameters asked for, in order, each with the bounds given for it (in the order of the parameters, or by name), and with contours filled as asked for each sample. In the plot of a run, training points are drawn with the parameters of the sample of the surrogate, and samples to compare with are added without changing the rest.", "quantifier": "for all samples, parameters, bounds, flags and surrogates", "why_tests_cant": "A plot with bounds or flags of another parameter or sample is still a plot", "anchors": ["gpry/plots.py:412-553", "gpry/run.py:1829-1866"]}
{"id": "C162", "title": "The likelihood of a run", "statement": "A run takes a function with bounds, a Cobaya model, or a dictionary with which Cobaya makes one. A model keeps its parameters in their order, each with its own label, and the bounds of its prior; a dictionary is the same as the model made of it. Bounds and names given with a model are ignored, and a warning says so exactly then. Everything else is refused with TypeError. The likelihood saved in a checkpoint and read back has the same parameters, labels and bounds.", "quantifier": "for all objects, arguments and models", "why_tests_cant": "Labels or bounds of another parameter go unnoticed until the results are interpreted; all kinds of objects are covered", "anchors": ["gpry/truth.py:20-48", "gpry/truth.py:187-199", "gpry/truth.py:231-236", "gpry/io.py:96"]}
{"id": "C163", "title": "Chains run by the Gaussian KL criterion", "statement": "Without a sample of the acquisition engine, GaussianKL runs chains on the surrogate: to strict limits exactly if the last value of the criterion is a number below 1, to looser ones otherwise; at temperature 2; proposing with the covariance matrix of the earlier sample with new weights if it is valid, else with that of the last check, else with none, for the parameters of the model; the same in all processes. The options n_draws and n_draws_per_dimsquared set the number of steps, and cannot be combined.", "quantifier": "for all histories, covariance matrices, options and numbers of processes", "why_tests_cant": "Chains with other limits or proposals give samples too; differences between processes are only seen in parallel runs", "anchors": ["gpry/convergence.py:306-323", "gpry/convergence.py:369-387", "gpry/convergence.py:434-470"]}
{"id": "C164", "title": "Criteria of convergence in parallel runs", "statement": "In a parallel run, new or resumed, all processes can read the values of the criteria after every check: the main process those of the last check, the others the same for criteria that handle MPI themselves. Criteria that do not are only checked in the main process. A run can be resumed in parallel from any of its checkpoints.", "quantifier": "for all criteria, processes, numbers of iterations and checkpoints", "why_tests_cant": "Only parallel runs show it, and only those resumed from the first checkpoint fail", "anchors": ["gpry/run.py:258-274", "gpry/run.py:723-734", "gpry/run.py:758-774", "gpry/run.py:803", "gpry/run.py:962-965", "gpry/convergence.py:134-137", "gpry/convergence.py:180-223"]}
{"id": "C165", "title": "Output folders of the nested samplers of NORA", "statement": "If a folder is given to NORA, the nested sampler of each acquisition writes to the next of its subfolders 0, 1, 2..., whatever the form of the path; no two runs share one, and the interface uses exactly that folder. Only the main process names folders. What the user has in the folder given is kept when the output is deleted, also if it is in one of the subfolders.", "quantifier": "for all paths, working folders, numbers of runs, processes and files", "why_tests_cant": "The folders are deleted after each run, and paths have infinitely many forms", "anchors": ["gpry/gp_acquisition.py:609-610", "gpry/gp_acquisition.py:709-726", "gpry/gp_acquisition.py:769-776", "gpry/gp_acquisition.py:810-813", "gpry/ns_interfaces.py:75-99", "gpry/ns_interfaces.py:241-269", "gpry/ns_interfaces.py:407-419", "gpry/ns_interfaces.py:523-535"]}
{"id": "C166", "title": "Iterations of resumed runs", "statement": "A run that is stopped and resumed carries on where it was: each iteration has its own row in the table of progress and its own number, so that plots of different iterations are different files, and the hyperparameters are refitted as often as in a run that is not stopped.", "quantifier": "for all numbers of sessions and of iterations in each, periods of fits and numbers of processes", "why_tests_cant": "It is about any number of stops at any iteration; tests do not resume runs repeatedly", "anchors": ["gpry/run.py:258", "gpry/run.py:283", "gpry/run.py:814-815", "gpry/run.py:1010", "gpry/run.py:1071", "gpry/run.py:1252-1261", "gpry/run.py:1561", "gpry/progress.py:58-66"]}
