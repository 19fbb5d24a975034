# Formal model of GPry in Rocq (Coq 8.16.1): design

The subject is the source tree in `/repo` (Python package `gpry`). The model is in
`rocq/theories`, logical name `Verif`. The code was read, never run.

## Conventions

* One model file per Python module or part of one (`M*.v`), containing only definitions. Every
  definition cites the file and lines it models and says what was simplified.
* One proof file per model file (`P*.v`) with the lemmas, and one specification/property file
  (`T*.v`) with the final theorems, the concrete `Example`s beside them (the hypotheses are
  met by a non-trivial case), and `Print Assumptions`.
* Exceptions are values: a function that may raise returns `res A := Ok a | Err exn`; a method
  that may raise after having modified its object returns the object left behind as well.
* Objects become records; a mutating method returns the new record. Where aliasing matters
  (deep copies), the shared part is an explicit heap cell.
* External behaviour (true likelihood, GP predictor, SVM, random draws, optimiser, nested
  sampler, the MPI launch size, the clock) is a function or stream argument or a `Section`
  variable that ends up universally quantified in the theorem. There is no axiom about it.
* Floats: extended numbers `num = NaN | NInf | Fin q | PInf` with `q : Qc` (canonical
  rationals). Infinities and NaN follow IEEE-754 (comparisons with NaN are false, inf-inf is
  NaN, ...); finite arithmetic is exact: **rounding, overflow and signed zero are not modelled**.
  Exception: `MFloat` uses IEEE doubles of Flocq, rounded to nearest even, for the transforms
  between prior and unit box and for the threshold of the classifier.
  The files about kernels, acquisition functions and GP algebra use the real numbers of the
  standard library (its axioms are listed) or an abstract real field.
* MPI: in most files a collective operation is a function of the list of all ranks' arguments
  (index = rank): all processes are in lockstep, and deadlock cannot be expressed. `MColl`,
  `MPar` and `MNoraPar` instead give each process its own program, a tree of collective calls; together they get
  stuck if they do not all call the same one. C100 says when that happens, and that otherwise
  they do what the lockstep models say. Collectives are synchronising (a broadcast waits for all);
  point-to-point messages are not used by the code.
* Where the code violates a property, the theorem is `..._refuted` (a concrete witness execution
  of the model), next to what does hold. Partial results carry `_partial`.

## Plan per property

| id | model | how it is proved |
|----|-------|------------------|
| C01, C02, C03 | `MMpi`: `split_number`, `step_split`, `merge_step_split`, `eval_truth_parallel` | arithmetic; list induction; equality with `map` for all sizes |
| C04 | `MTruth`: `logp` returning value and trace of likelihood calls | case analysis, any dimension |
| C05 | `MTruth`: signature inspection, wrapping, `as_dict`, rebuild | proved for d <> 1 or positional likelihood; refuted for d = 1 |
| C06, C07, C08, C09, C10 | `MTools` | pointwise characterisation; C07 refuted + what holds; C08 needs factor >= 1 |
| C11, C12, C13, C14 | `MPreproc` | field identities on `Qc`; induction over the stages; C14 refuted |
| C15 | `MSvm`: state machine of `fit`/`predict` | invariants over histories of fits |
| C16 - C22, C25, C26 | `MGpr`: `append_to_data`, `fit_gpr_hyperparameters`, `_update_model` as a state machine; the numerical model is an opaque token recording which data and hyperparameters it was computed from | invariant over op lists; refutations by witness histories |
| C23 | `MPredict` | pointwise characterisation of `predict` |
| C24 | `MGpr`: deep copy with shared cells | refuted; what is copied is proved |
| C27, C28, C96, C97 | `MLinAlg` over `R`: Cholesky factor, triangular systems | induction on the training set |
| C72 | `MPredict` (paths), `MGrad` over `R`: gradients from `MKernel` and `MLinAlg`; `MWhiten` | derivatives through the solution; equivalences saying when the reported gradient is right; with `Whitening` derivatives along lines (`SDirect`) |
| C98 | `MLinAlg`, `MKernel`, `MWhite` over `R` | closure properties of positive definite functions (products, exponentials, limits, integrals) |
| C29 - C35 | `MPool`: five arrays as a list of slots, cached models as "prefix conditioned on" tokens | invariant by induction over additions; fuel bound for the loop |
| C36 | `MBatch` | per-rank lists; induction on the batch |
| C37 - C39, C93 - C95 | `MNora`: counter, stored and re-weighted sample, points proposed; ranking by `MPool` on each rank | histories of calls; permutations through splitting and merging; C39, C95 refuted |
| C40 - C45 | `MConv` | boolean characterisations, induction over histories |
| C46 - C53 | `MRun`: options, initial training, main loop with oracles | invariant of the loop, variant for termination |
| C54, C55, C56, C75 | `MRunData` | any previous state; refuted where stale |
| C76 - C83 | `MMc`: inputs and outputs of the samplers of the surrogate | pointwise characterisation, permutations for the ranks |
| C84 - C87 | `MNs`: files as pairs of folder and name, settings as dictionaries | list induction, string prefixes |
| C99 | `MNsPrec`: choice of the sampler and its settings in `NORA` | from C86 and C10 |
| C100 | `MColl`: programs of collective calls, run together; `MPar`, `MNoraPar`: the programs of the runner, batch acquisition and NORA | composition lemmas for programs; from the lockstep models; refuted where only some processes raise |
| C101 - C103, C105 | `MHyper` over `R`: kernel expressions with values and bounds, `theta`, `bounds`, fits as evaluations of an arbitrary optimiser | induction over expressions; invariant over histories of fits; refutations |
| C69, C14 (eigenvectors, learning) | `MWhiten` over `R`: transform matrices from an eigen-decomposition, weighted covariance | orthogonality; linear dependence of d centred vectors |
| C106 | `MBatch` with `MPreproc` and `MWhiten` as preprocessor | from C11, C69; refuted for trust regions and for whitening |
| C107 | `MObjective`: `MAcqFunc` of `MGrad`, in the coordinates of the acquisition | chain rule from C72 and C74; right iff scale 1 without noise; refuted for y-preprocessors and for an acquisition without preprocessor |
| C104 | `MRefit`: `MHyper`, `MKernel` and `MLinAlg` together | from C27; refuted without new points or if the fit raises |
| C108 | `MNonlinear` (on `MAcqFunc`) | both branches equal ln(e^x - 1); refuted: documented order, gradient |
| C109 | `MAcqHyper`: objects in a store, composites refer to them | proved without sharing; refuted: shared objects, raising setters of composites, LogExp without `sigma_n`, `fixed` in composites |
| C110 | `MAcqHyper`, values and gradients of `MAcqFunc` | by induction; refuted: sums of three in another grouping are not `==` |
| C111 | `TKl` | proved over the real numbers: non-negativity via Cholesky factors and determinants (`PDet`), equality case, degenerate covariances, invariance under changes of units |
| C112 | `TKl` | proved over the real numbers, for any non-negative weight function with value 1 at 0 in place of the exponential |
| C113 | `TDiag` | refuted: with one parameter the diagnosis always raises, hence a one-parameter run returns only by giving up; equal means are reported as failure; proved for two parameters or more: the verdict is that of the Mahalanobis distance, with NORA also that of the divergence |
| C114 | `MReuse`, `MReweight` | invariant over all sequences of checks (the first value is NaN, hence the maximum of the values); importance weights over `R`; concrete runs for what fails |
| C115 | `MTrust` | refuted: the region may have no width (one parameter), and factors below 1 leave out points; proved: the points used, the end of the loop, the box is inside of the prior and contains the points (factors of at least 1) |
| C116 | `MCredible`, masses by Coquelicot's integral | proved over the real numbers: the radial integrals are bounded (recursion d -> d + 2), hence have a total; monotone likelihood ratio for the comparison of dimensions; functions with the properties assumed of scipy's are constructed |
| C117 | `MBuild`: dictionaries as ordered lists, classes as names with arguments | proved for all dictionaries; refuted: arguments of an acquisition function given by name are dropped, so are further entries; `gpr=None`, `{"reference": None}`, lists of dictionaries and dictionaries with criteria as values |
| C118 | `MBuild`, `MRun` | proved if a sampler was given; refuted: without `mc`, or after resuming, the call raises, so such a run returns only by giving up |
| C119 | `MCobaya`, `MBuild`: calls as lists of keywords against lists of parameters; the constructor of the runner is arbitrary | proved: merged options, verbosity; refuted: every initialisation raises (`model` is no parameter of the runner), `run` and plots raise, `tru.pkl` is not listed, no folder without output, NORA cited only if not used |
| C120 | `MSlices` over `R`: functions of points that return or raise | proved for lists; refuted: points given as dictionaries always raise, longer bounds are accepted |
| C121 | `MPlots`, `TPlots` | references of plots: all three forms and the change of the dictionary |
| C122 | `MPlots`, `TPlots` | the heights of the bins; the volumes by their recursion, for any `gamma` with its functional equation |
| C123 | `MPlots`, `TPlots` | which points are added and the limits of the colours, for two or more parameters |
| C124 | `MSeed`, `TSeed` | random numbers as pairs of stream and position; generators of processes, regressor with its random state, sharing, resuming |
| C125 | `MResume`, `TResume` | sessions of a resumed runner on top of the main loop of `MRun`: what is on disk after each |
| C126 | `MFloat`, `PFloat`, `TFloat` | double precision (Flocq): the transforms of one coordinate between prior and unit box, `is_in_bounds`, `shrink_bounds` |
| C127 | `MFloat`, `PFloat`, `TFloat` | double precision (Flocq): threshold of `keep_min_finite`, labels of values and of transformed values |
| C128 | `TUnits`, `TUnits2`, `TUnitsRun` | a change of units of the parameters and a constant added to the log-likelihood change nothing but the units: simulation over all series of calls for the surrogate with the default preprocessors (`MUnits`), whole runs of `MRun` in a world that reacts to their state, the posterior, the filter of proposals, the counter, acquisition functions, predictions; refuted for UltraNest, NORA's removal of proposed points, acquisition functions of the mean, and without y-preprocessor |
| C129 | `MLinAlg`, `MLml`, `MGpr`, `MPredict`, `MUnits` | predictions do not depend on the order of the training points: over the reals for the linear algebra and the objective of the fit (`TOrder`), for histories of calls with everything else (`TOrder2`; components that are not modelled in full are assumed not to look at the order) |
| C130 | `MLml`, `MLinAlg` | the objective of the fit is the sum of the log-densities with which the surrogate predicts each value from those before it, in any order (`TOrder`; vocabulary in `SLml`) |
| C131 | `MLinAlg`, `MLml` | means are linear in the values, standard deviations and existence do not depend on them; common change of units of values, noise and amplitude (`TLaws`) |
| C132 | `MLinAlg` | more noise, nowhere less uncertainty; repeated points count as their weighted mean; without noise they have no surrogate (`TLaws`; vocabulary in `SLml`) |
| C133 | `MLinAlg`, `MKernel`, `MWhite` | what `predict` returns is continuous; for kernels that vanish at large distances it tends to the mean of the training values with the standard deviation of the prior (`TLaws2`; vocabulary in `SLaws`) |
| C134 | `MLie`, `MObjective`, `MAcqFunc`, `MLinAlg` | `TLie`: at most the noise remains at a training point (best linear predictor with one coefficient), so that LogExp is -inf there; lies keep the mean and lower the standard deviation; induction over the batch. Refuted for individual noise levels. |
| C135 | `MReport`, `MGpr`, `MSvm` | `TReport`: labels of the last training of the classifier against the classification of the full set (as C17) |
| C136 | `MDiagCb` | `TDiagCb`: case analysis; membership in arrays by coordinates |
| C137 | `MRun`, `MGpr` | Whatever happens in a run, the surrogate's points are those of before followed by the evaluated ones with their values; if the run raises, at most the last batch is missing, as a whole. Refuted for the initial training that fails (all its evaluations are lost) and for surrogates with noise levels per point (`append_to_data` is called without noise levels) |
| C138 | `MRef`, `MTruth` | Reference box as given, else the prior; samples of the prior and of the reference are in their boxes; names and labels as given. Refuted: a reference outside the prior and limits in the wrong order are accepted, and then no initial point is ever evaluated |
| C139 | `MRun`, `MGpr` | a run whose ingredients work returns, fresh or resumed; the only exception is too few finite values in the initial training |
| C140 | `MParams` | Acquisition functions are objects in a memory (list of objects with a class and attributes; references are positions); `get_params`, `set_params` and sklearn's `clone` read and write it. Keys are strings and are split as the code does. The depth of calls that the interpreter allows is a parameter; the theorems need it to be at least the nesting of the object. `copy.deepcopy` of values that are not acquisition functions gives equal values. |
| C141 | `MOwn` | Dictionaries that users pass stay as they are; what is kept of them; refuted for samples, acquisition objects and criteria made directly |
| C142 | `MKernObj` | Kernels as objects: users' kernels are never changed, surrogates do not share hyperparameters; refuted for `kernel=gp.kernel_` and shared parts |
| C143 | `MFloatY` | `Normalize_y` in double precision: error of the round trip, order, distinct values, -inf, the mean; equal values |
| C144 | `MFloatN`, `MMpi` | counts by division and by multiplication in double precision: relative error below the distance of a quotient to the next integer |
| C145 | `MKlMc` | `kl_mc` over the real numbers with infinities; Gibbs' inequality; sums of extended reals under permutation, scaling, repetition |
| C146 | `MNpErr` | programs whose operations set floating point flags, run under numpy's settings; `kl_norm` with its flags |
| C147 | `MRepro` (on `MSeed`) | a run as an arbitrary strategy that sees the numbers drawn; two valuations of the streams that agree where a seed fixes them |
| C148 | `SAxes` (on `MKernel`, `MGrad`, `MLml`, `MKl`, `MTools`, `MTrust`) | points, bounds, length scales, samples with their parameters in any other order; determinants under reordering in `PAxesDet` |
| C149 | `MCritSave` (on `MReuse`) | `external` entries of `cobaya_input` and `_last_info` as a live surrogate or True; one process; the copies of all other attributes are assumed to be equal to them |
| C150 | `MNsRun` (on `MNs`) | interfaces in all processes, runs one after another; samplers are arbitrary: points evaluated in each process, and a sample or an exception in all of them; same arguments in all processes |
| C151 | `MNsNames` (on `MMc`) | what each sampler is given as names; the dictionary of nessai with Python's semantics; what the samplers do with tuples in place of names is theirs and not modelled |
| C152 | `MFloatC` (on `MFloat`) | the ceiling in IEEE doubles with Flocq; values up to 2^500 in size; finite predictions |
| C153 | `MCbSample` (on `MMc`) | the dictionary given to Cobaya's `get_sampler`, what `get_output` is asked for, the key in the information returned; Cobaya's functions are arbitrary |
| C154 | `MNsFile` (on `MNs`) | `os.path.split`, `splitext` and `join` with Python's semantics on Posix; `abspath` is arbitrary; folders are not represented |
| C155 | `MMeanCov` (on `MCbSample`) | values and samples are abstract; what is computed from a sample may raise; reading attributes follows `getattr` with a default, which catches AttributeError only |
| C156 | `MRunFns` (on `MTruth`) | the surrogate is any function of rows of points; of Cobaya's model only the log-densities of prior and likelihood, its documented return values are assumed (`loglike` returns derived parameters too by default) |
| C157 | `MAcqEvals` (on `MProgress`) | only the counters; how many predictions an optimisation takes is arbitrary |
| C158 | `MPlotConv` | curves and lines given to matplotlib; the number of colours is arbitrary; axes, scales and legends are left out |
| C159 | `MPlotConv` | strings of ASCII characters |
| C160 | `MPlotRun` (on `MNsFile`) | the names of files written; every plot may fail, what it shows is left out; values of options are booleans or strings |
| C161 | `MCorner` | the arguments given to GetDist; a sample is the list of its running parameters (of GetDist is assumed that a star at the end of a name makes a parameter derived); markers, sizes and colours are left out |
| C162 | `MTruthGet` (on `MTruth`) | of Cobaya: whether a model is made of a dictionary, and its parameters, labels, bounds and info, all arbitrary; that Cobaya makes of the info of a model one like it is a hypothesis of C162_rebuild |
| C163 | `MKlMcmc` (on `MCbSample`) | the options given to Cobaya's sampler; validity of covariance matrices is arbitrary; what the chains do, and the starting points, are left out (C163 is about options only) |
| C164 | `MShareConv` | the criteria held by one process and their values, which are arbitrary; the verdict and the communication are in `MConv` and `MColl` |
| C165 | `MNoraDir` | `_get_output_folder` with `os.path.abspath`, `normpath` and `join` on POSIX paths; symbolic links and the making of folders are not modelled; random names are arbitrary |
| C166 | `MResumeIt` | the number of the iteration and the rows of the table; sessions are counted by iterations whose checkpoint was saved; fits as in `MRun` |
| C88 | `MIo`, as C57 - C60 | case analysis |
| C89 - C91 | `MProgress`: tables as lists of rows, all processes together | list induction |
| C92 | `MProposal`: randomness as a list of draws | case analysis |
| C57 - C60 | `MIo`: folder = file name -> content, writes as steps, crash = prefix of the steps | all crash points; refutations |
| C61 | `MProposal`: random stream as list | induction on the stream |
| C62 | `MProgress` | invariant over event lists |
| C63 - C66, C74 | `MAcqFunc`, `MKernel` over `R` | derivatives (Coquelicot `is_derive`), induction over expression trees |

Not expressible here, and why:

* accuracy of the linear algebra (conditioning of the kernel matrix, rounding): numbers are idealised, except in C126, C127, C143, C144 and C152 (double precision);
* statistical quality (does the surrogate converge to the truth): a statement about the
  likelihood, the optimiser and the sampler, which are arbitrary functions here;
* drawing (`plots.py`) and what Cobaya does with its classes: effects live in matplotlib and Cobaya.

## What is modelled and what is not

| source | modelled | left out or simplified |
|--------|----------|------------------------|
| `mpi.py` | splitting (also in double precision, `MFloatN`), merging, parallel evaluation, which collectives are called, the generators of processes (`MSeed`, `MRepro`) | the communicator itself; pickling |
| `tools.py` | the functions cited in `MTools`; `kl_norm`, means and covariances of samples over `R` (`MKl`); `kl_mc` (`MKlMc`); numpy's error settings (`MNpErr`); credible volumes (`MCredible`) | `chi2.cdf`, `chi2.isf` and `erfc` are functions characterised by integrals (`SCredible`); `volume_sphere` (see C122), helpers for plots |
| `truth.py` | `MTruth`, `MRef`; densities of `TruthCobaya` (`MRunFns`), its construction and `get_truth` (`MTruthGet`) | samples of the prior and of the reference of a Cobaya model (Cobaya's functions) |
| `preprocessing.py` | `MPreproc`; the linear algebra of `Whitening` over `R` (`MWhiten`); `Normalize_bounds` and `Normalize_y` in double precision (`MFloat`, `MFloatY`) | `scipy.linalg.eigh` is an arbitrary function; theorems assume that it decomposes the matrix (`SWhiten`) |
| `svm.py` | state and labels (`MSvm`) | training of the underlying SVC (an arbitrary function) |
| `gpr.py` | appending, fitting, predictions, copies (`MGpr`, `MPredict`, `MCopy`, their random states in `MCopySeed`); the trust region (`MTrust`); the clipping in double precision (`MFloatC`); reports about finite points (`MReport`) | the linear algebra is an arbitrary function there and modelled over the real numbers in `MLinAlg`, `MLml` and `MGrad`; the optimiser is an arbitrary function; printing, `sample_y` |
| `kernels.py` | values and gradients (`MKernel`); hyperparameters and bounds (`MHyper`); kernels as objects, copies (`MKernObj`) | `repr`, `requires_vector_input`, comparison of kernels |
| `acquisition_functions.py` | values and gradients (`MAcqFunc`), `NonlinearLogExp` (`MNonlinear`), hyperparameters and equality (`MAcqHyper`), parameters by name and copies (`MParams`) | `repr` |
| `gp_acquisition.py` | ranked pool (`MPool`); `BatchOptimizer` (`MBatch`, its objective in `MObjective`, believed values in `MLie`); `NORA` (`MNora`, `MNsPrec`, output folders in `MNoraDir`); counters of evaluations of `BatchOptimizer` (`MAcqEvals`) | the optimiser and the nested samplers (arbitrary functions and results); logging, timing, plots |
| `convergence.py` | `MConv`; the value of `TrainAlignment` (`MKl`); reuse of samples (`MReuse`, `MReweight`); copying and saving (`MCritSave`); options of the chains (`MKlMcmc`); who checks in parallel (`MShareConv`) | KL estimates by Monte Carlo are arbitrary numbers in `MConv`; Cobaya's sampler |
| `run.py` | construction of components and choice of the sampler (`MBuild`; what happens to the dictionaries given: `MOwn`), options, the default surrogate (`MUnits`), initial training, parallel fit, main loop (`MRun`); fiducial points, stored samples (`MRunData`); mean and covariance matrix reported (`MMeanCov`); functions for posterior and likelihood (`MRunFns`); diagnosis (`MKl`); which plots are written (`MPlotRun`) | see below; what plots show |
| `mc.py` | `MMc`; the sampler Cobaya is asked for (`MCbSample`); the path of the sample file (`MNsFile`) | Cobaya, GetDist and the samplers themselves |
| `ns_interfaces.py` | `MNs`; runs one after another in all processes (`MNsRun`); names and labels of parameters (`MNsNames`) | the samplers |
| `io.py` | `MIo` | pickling (faithful, or cut off by a crash); the branch for old Cobaya models; MPI: only the main process touches files |
| `progress.py` | `MProgress` | pandas; drawing of the plot (only its totals); wall-clock time |
| `cobaya.py` | `MCobaya`: options of `initialize`, the call of the runner, attributes read after the sample, names of files, `is_nora`, verbosity | Cobaya itself (products, output drivers, `add_suffix`), the defaults in `cobaya.yaml`, covariance files |
| `plots.py` | the points and values of slices (`MSlices`), references, histograms of distances, training points of triangle plots (`MPlots`), curves of the convergence plot, numbers in texts (`MPlotConv`), arguments of triangle plots (`MCorner`) | the rest: drawing, traces, contours |
| `diag.py` | `MDiagCb`: control flow, attributes read, membership of points | printing and drawing |
| `proposal.py` | `MProposal` | classes marked as unused there (`MeanAutoCovProposer`, `SmallChainProposer`); distributions (draws are arbitrary); warnings |

`MRun` treats all processes together: between collective operations they hold the same state, and an
exception in any of them ends the run. The true posterior returns (it does not raise), a callback does
not modify the runner, the rejection loop of a proposer is represented by the draws it accepts, and
progress tables, plots and logging are omitted. Everything a pass through the loop takes from outside
(proposals, values, random starting points, criteria, diagnosis, exceptions) is an arbitrary input.
`o_full` etc. are natural numbers, as the validation guarantees (C52).

## Trusted base

Coq's kernel (8.16.1); the reading of the Python source embodied in the `M*.v` files; Python and
numpy semantics as described in the comments (slices with negative or zero bounds, `argsort`,
`argmax`, NaN comparisons). `Print Assumptions` is given under every theorem in the `T*.v` files.

What `Print Assumptions` reports:

* `TKernel`, `TAcqFunc`, `TLinAlg`, `TPsd`, `TGrad`, `THyper`, `TKernObj`, `TRefit`, `TWhiten`, `TObjective`, `TNonlinear`,
  `TAcqHyper`, `TKl`, `TDiag`, `TReuse`, `TCredible`, `TSlices`, `TPlots`, `TFloat`, `TFloatY`, `TFloatN`, `TFloatC`, `TKlMc`, `TNpErr`, `TUnits2`, `TOrder`, `TLaws`, `TLaws2`, `TLie`, `TDirect`, `TAxes`, `TAxesKl`, and
  `C106_whitening_refuted` in `TBatchIn` (over `R`): the axioms of the standard library's real numbers,
  `ClassicalDedekindReals.sig_not_dec`, `ClassicalDedekindReals.sig_forall_dec`,
  `FunctionalExtensionality.functional_extensionality_dep`, and `Classical_Prop.classic`. Coquelicot is
  used for derivatives, integrals and limits, Flocq for doubles; they add no axioms of their own.
* all other `T*.v` files: closed under the global context.
