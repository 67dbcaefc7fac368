{"id": "C01", "title": "Scaled samples stay inside the design space (binary64)", "statement": "LatinHyperCube/RandomSampler/SobolSequence.get_samples(n) returns n rows of num_dim coordinates, every coordinate between its bounds. For RandomSampler and SobolSequence, whose draws are in [0,1), this holds on every design space. LatinHyperCube may draw exactly 1; then the upper bound holds provided the binary64 value lb + (ub - lb) is itself <= ub, and can be exceeded otherwise. In exact arithmetic it is never exceeded.", "quantifier": "all finite design spaces with lb <= ub and no overflow in ub - lb, all n, all seeds, all engine outputs in [0,1]", "why_tests_cant": "depends on the rounding of every (lb, ub, u) triple; a test sees a handful of seeds", "anchors": ["src/mfpml/design_of_experiment/sf_samplers.py::SingleFidelitySampler.scale_samples", "src/mfpml/design_of_experiment/sf_samplers.py::LatinHyperCube.get_samples", "src/mfpml/design_of_experiment/sf_samplers.py::RandomSampler.get_samples", "src/mfpml/design_of_experiment/sf_samplers.py::SobolSequence.get_samples"]}
{"id": "C02", "title": "Latin hypercube stratification survives scaling", "statement": "If the unit-cube engine puts exactly one point in each of the n equal strata of every axis, then LatinHyperCube.get_samples(n) puts exactly one sample in each of the n equal strata of [lb_j, ub_j] for every axis j (exact arithmetic).", "quantifier": "all design spaces with lb < ub, all n, all engine outputs that are stratified", "why_tests_cant": "a test checks one seed and one n", "anchors": ["src/mfpml/design_of_experiment/sf_samplers.py::LatinHyperCube.get_samples", "src/mfpml/design_of_experiment/sf_samplers.py::SingleFidelitySampler.scale_samples"]}
{"id": "C03", "title": "FixNumberSampler repeats the flattened design space", "statement": "FixNumberSampler.get_samples(n) returns exactly n rows, each equal to the design space flattened row by row, whatever the seed.", "quantifier": "all rectangular design spaces, all n, all seeds", "why_tests_cant": "one literal in the test-suite", "anchors": ["src/mfpml/design_of_experiment/sf_samplers.py::FixNumberSampler.get_samples"]}
{"id": "C04", "title": "Multi-fidelity sampler: one array per level, right counts, right box", "statement": "For non-nested MFLatinHyperCube and MFSobolSequence, get_samples([n_0,...,n_k]) returns k+1 arrays; array i has n_i rows, each lying in fidelity i's own design space.", "quantifier": "all numbers of fidelities, all non-decreasing count lists, all design spaces, all seeds, all engine outputs in [0,1]", "why_tests_cant": "the pop/insert loop must pair each count with the right fidelity index for every list length", "anchors": ["src/mfpml/design_of_experiment/mf_samplers.py::MultiFidelitySampler.get_samples", "src/mfpml/design_of_experiment/mf_samplers.py::MFLatinHyperCube._get_non_nested_samples", "src/mfpml/design_of_experiment/mf_samplers.py::MFSobolSequence._get_non_nested_samples"]}
{"id": "C05", "title": "Nested sampling is nested, without repetition", "statement": "With nested=True, for every pair of adjacent levels the higher-fidelity array is a selection of distinct rows of the next lower-fidelity array (each row index used at most once), with exactly the requested number of rows; the lowest level lies in its design space.", "quantifier": "all numbers of fidelities, all non-decreasing count lists, all outcomes of the random index choice", "why_tests_cant": "the choice is random and the chain can be of any length", "anchors": ["src/mfpml/design_of_experiment/mf_samplers.py::MultiFidelitySampler.get_samples", "src/mfpml/design_of_experiment/mf_samplers.py::MFLatinHyperCube._get_nested_samples", "src/mfpml/design_of_experiment/mf_samplers.py::MFSobolSequence._get_nested_samples"]}
{"id": "C06", "title": "Sample-count rule", "statement": "get_samples raises AssertionError exactly when some level asks for more samples than the next lower fidelity; in that case the caller's list is unchanged and no engine is called.", "quantifier": "all count lists", "why_tests_cant": "all lists", "anchors": ["src/mfpml/design_of_experiment/mf_samplers.py::MultiFidelitySampler._mf_samples_rules"]}
{"id": "C07", "title": "get_samples consumes the caller's count list", "statement": "A successful multi-fidelity get_samples(num_samples=L) leaves the caller's list L empty, and calling it again with the same list object raises IndexError: the argument is not preserved. When sampling a level of a non-nested design fails, the counts of that level and of all lower fidelities have been removed from L.", "quantifier": "all calls", "why_tests_cant": "side effect on an argument across calls; tests pass fresh literals", "anchors": ["src/mfpml/design_of_experiment/mf_samplers.py::MultiFidelitySampler.get_samples", "src/mfpml/optimization/mf_uncons_bo.py::mfUnConsBayesOpt._initialization"]}
{"id": "C08", "title": "Non-nested multi-fidelity Sobol is nested anyway", "statement": "With an integer seed and nested=False, before scaling every MFSobolSequence level is a prefix of the next lower level; when all levels share a design space the returned higher-fidelity array is literally a prefix of the lower-fidelity one.", "quantifier": "all seeds, dimensions, count lists", "why_tests_cant": "must hold for every seed and every count list", "anchors": ["src/mfpml/design_of_experiment/mf_samplers.py::MFSobolSequence._get_non_nested_samples"]}
{"id": "C09", "title": "Seed reproducibility", "statement": "With an integer seed, LatinHyperCube, SobolSequence and RandomSampler return the same array on every call (RandomSampler by reseeding the global generator), whatever the state of the global generator. Nested MFLatinHyperCube does not: which low-fidelity rows are reused depends on the global generator, so the same seed can give different designs.", "quantifier": "all seeds, spaces, counts and all global generator states", "why_tests_cant": "quantifies over hidden global state", "anchors": ["src/mfpml/design_of_experiment/mf_samplers.py::MFLatinHyperCube._get_nested_samples", "src/mfpml/design_of_experiment/mf_samplers.py::MultiFidelitySampler.get_samples"]}
{"id": "C10", "title": "Nested sampling ignores per-level design spaces", "statement": "With nested=True every returned row of every level lies in the design space of the lowest fidelity; consequently if a higher level was given a smaller box of its own, its samples can fall outside it.", "quantifier": "all lists of design spaces", "why_tests_cant": "needs the chain argument for any number of levels", "anchors": ["src/mfpml/design_of_experiment/mf_samplers.py::MultiFidelitySampler.get_samples"]}
{"id": "C11", "title": "SobolSequence.get_samples fails beyond 30 samples", "statement": "SobolSequence.get_samples(n) asks the engine for 2^n points before truncating to n: the work doubles with each extra sample, and for n > 30 the call never returns normally, since the engine refuses more than 2^30 points.", "quantifier": "all n", "why_tests_cant": "n=2 in the test-suite", "anchors": ["src/mfpml/design_of_experiment/sf_samplers.py::SobolSequence.get_samples"]}
{"id": "C12", "title": "PSO never evaluates outside the design space", "statement": "Every location PSO.run_optimizer passes to the objective, records in all_samples or returns has no coordinate strictly below its lower bound or strictly above its upper bound. If moreover the bounds are at most 2^M and the rates at most 2^Q in absolute value with 2M+3Q+4 <= 1023 and max_v_rate >= 0, no coordinate is NaN, so every location lies in the box. With a negative max_v_rate a NaN location can be evaluated.", "quantifier": "all objectives (also impure ones), all random draws in [0,1), all rates/weights, all population and generation numbers, all finite design spaces with lb <= ub and no overflow in ub - lb", "why_tests_cant": "random swarm, unbounded number of generations", "anchors": ["src/mfpml/optimization/evolutionary_algorithms.py::PSO.run_optimizer", "src/mfpml/optimization/evolutionary_algorithms.py::EABase._loc_cons", "src/mfpml/optimization/evolutionary_algorithms.py::EABase._location_initialzer"]}
{"id": "C13", "title": "DE never evaluates outside the design space and never produces NaN coordinates", "statement": "Every location DE.run_optimizer passes to the objective, records or returns lies in the box, for both strategies, and no coordinate is NaN as long as ub - lb does not overflow and the step size is finite.", "quantifier": "all objectives, draws, step sizes, crossover rates, population and generation numbers", "why_tests_cant": "random search, unbounded generations", "anchors": ["src/mfpml/optimization/evolutionary_algorithms.py::DE.run_optimizer", "src/mfpml/optimization/evolutionary_algorithms.py::EABase._loc_cons"]}
{"id": "C14", "title": "Best-so-far history never gets worse", "statement": "best_y_historical of PSO and DE is non-increasing over the generations actually run, for every objective whose first population has no NaN response.", "quantifier": "all objectives, draws, generations", "why_tests_cant": "any number of generations", "anchors": ["src/mfpml/optimization/evolutionary_algorithms.py::PSO.run_optimizer", "src/mfpml/optimization/evolutionary_algorithms.py::DE.run_optimizer"]}
{"id": "C15", "title": "Returned optimum is the minimum of everything evaluated and is attained", "statement": "The second value returned by PSO/DE.run_optimizer is <= every non-NaN response observed during the run, and the third value is a location that was actually evaluated and whose response was that value. For DE this needs no NaN in the first population; for PSO no NaN at all: a NaN in a later PSO generation hides the improvements that generation found.", "quantifier": "all objectives (possibly impure), draws, generations", "why_tests_cant": "any number of generations", "anchors": ["src/mfpml/optimization/evolutionary_algorithms.py::PSO.run_optimizer", "src/mfpml/optimization/evolutionary_algorithms.py::DE.run_optimizer", "src/mfpml/optimization/evolutionary_algorithms.py::EABase._gen_best_x", "src/mfpml/optimization/evolutionary_algorithms.py::EABase._gen_best_obj"]}
{"id": "C16", "title": "DE selection is greedy and keeps locations paired with responses", "statement": "In every recorded DE generation, individual i's recorded response is the response observed when its recorded location was evaluated, and it is never larger than in the previous generation.", "quantifier": "all objectives without NaN, draws, generations", "why_tests_cant": "any number of generations", "anchors": ["src/mfpml/optimization/evolutionary_algorithms.py::DE.__update_obj"]}
{"id": "C17", "title": "PSO personal bests", "statement": "After every generation each particle's personal best is <= every response that particle has observed, is one of them, and its personal best location is where that response was observed.", "quantifier": "all NaN-free objectives, draws, generations", "why_tests_cant": "any number of generations", "anchors": ["src/mfpml/optimization/evolutionary_algorithms.py::PSO.__update_pop_optimum"]}
{"id": "C18", "title": "Early stop: which outputs can be trusted", "statement": "When stopping_error ends PSO/DE early, the second and third return values are the best found, but results['best_x'] and results['best_y'] are the all-zero filler row of the preallocated arrays; without an early stop they agree with the second and third return values.", "quantifier": "all runs", "why_tests_cant": "needs a run that stops early; filler rows look like data", "anchors": ["src/mfpml/optimization/evolutionary_algorithms.py::PSO.run_optimizer", "src/mfpml/optimization/evolutionary_algorithms.py::DE.run_optimizer"]}
{"id": "C19", "title": "Stopping rule", "statement": "The run stops after the first generation whose best-so-far is strictly below stopping_error, otherwise it runs exactly num_gen generations; the objective is called once for the initial population and once per generation run, always with num_pop locations.", "quantifier": "all objectives, draws, stopping errors", "why_tests_cant": "any number of generations", "anchors": ["src/mfpml/optimization/evolutionary_algorithms.py::PSO.run_optimizer", "src/mfpml/optimization/evolutionary_algorithms.py::DE.run_optimizer"]}
{"id": "C20", "title": "DE donor selection", "statement": "For num_pop >= 3 (>= 2 for the best/1 strategy) every donor index is a valid index different from the target; the donors are pairwise distinct unless the target index was drawn together with its replacement, in which case two donors coincide.", "quantifier": "all population sizes, targets and index draws", "why_tests_cant": "random draws", "anchors": ["src/mfpml/optimization/evolutionary_algorithms.py::DE.__update_pop"]}
{"id": "C21", "title": "DE binomial crossover takes at least one mutant gene", "statement": "Before the bounds repair every trial vector takes at least one component from the mutant vector and every other component from either the mutant or the target.", "quantifier": "all crossover rates and draws", "why_tests_cant": "random draws", "anchors": ["src/mfpml/optimization/evolutionary_algorithms.py::DE.__update_pop"]}
{"id": "C22", "title": "A NaN in the first population poisons the whole run", "statement": "If any response of the initial population is NaN, the best value reported by PSO/DE is NaN after every generation and the stopping criterion never fires, whatever is evaluated later.", "quantifier": "all objectives, draws, generations", "why_tests_cant": "history property", "anchors": ["src/mfpml/optimization/evolutionary_algorithms.py::PSO.__update_gen_optimum", "src/mfpml/optimization/evolutionary_algorithms.py::DE.__update_gen_optimum"]}
{"id": "C23", "title": "PSO velocity clamp", "statement": "After the velocity update every velocity component is within [-v_max, v_max] of its axis (exact arithmetic), components already inside are untouched and clamped components keep their sign. In binary64 a clamped component can exceed v_max by rounding, but never the power of two above v_max.", "quantifier": "all velocities and v_max >= 0", "why_tests_cant": "all reals", "anchors": ["src/mfpml/optimization/evolutionary_algorithms.py::PSO.__velocity_cons"]}
{"id": "C24", "title": "Degenerate budgets are rejected", "statement": "run_optimizer with num_gen = 0 raises UnboundLocalError after evaluating the initial population; DE with fewer individuals than donors, or with an unknown strategy, raises ValueError after evaluating the initial population.", "quantifier": "all objectives and draws", "why_tests_cant": "error paths for every input", "anchors": ["src/mfpml/optimization/evolutionary_algorithms.py::PSO.run_optimizer", "src/mfpml/optimization/evolutionary_algorithms.py::DE.run_optimizer"]}
{"id": "C25", "title": "Single-fidelity BO: best is the minimum of all observed responses", "statement": "At any time after construction and any sequence of run_optimizer calls, BayesUnConsOpt.best is the minimum of the recorded responses and best_x is the first recorded sample attaining it (NaN-free responses).", "quantifier": "all problems, acquisitions (any query sequence), seeds, any sequence of run_optimizer calls", "why_tests_cant": "any number of iterations and calls", "anchors": ["src/mfpml/optimization/sf_uncons_bo.py::BayesUnConsOpt.run_optimizer", "src/mfpml/optimization/sf_uncons_bo.py::BayesUnConsOpt._update_para", "src/mfpml/optimization/sf_uncons_bo.py::BayesUnConsOpt._initialization"]}
{"id": "C26", "title": "Single-fidelity BO bookkeeping", "statement": "Each iteration appends exactly one sample, one response and one history entry; earlier samples, responses and history entries are never changed; response i is the objective evaluated at sample i; history_best is non-increasing and has one more entry than iterations run.", "quantifier": "all problems, acquisitions, call sequences", "why_tests_cant": "any history", "anchors": ["src/mfpml/optimization/sf_uncons_bo.py::BayesUnConsOpt.run_optimizer"]}
{"id": "C27", "title": "Single-fidelity BO stopping rule", "statement": "run_optimizer of the unconstrained and of the constrained single-fidelity optimizer performs at most max_iter iterations and stops early exactly when the relative error (absolute error when the known optimum is 0) of the best value so far is below stopping_error or is NaN, every performed iteration having started with an error >= stopping_error; with an unknown optimum the unconstrained optimizer runs max_iter iterations when stopping_error <= 1 and none when stopping_error > 1.", "quantifier": "all problems, thresholds, histories", "why_tests_cant": "all thresholds", "anchors": ["src/mfpml/optimization/sf_uncons_bo.py::BayesUnConsOpt.run_optimizer", "src/mfpml/optimization/sf_uncons_bo.py::BayesUnConsOpt.__update_error"]}
{"id": "C28", "title": "Constrained BO: best is the best feasible response", "statement": "BayesConsOpt.best is the minimum objective among recorded samples whose constraint values are all <= 0, and +inf with best_x None when there is no such sample; history_best is non-increasing.", "quantifier": "all problems, numbers of constraints, acquisitions, call sequences (NaN-free)", "why_tests_cant": "any history", "anchors": ["src/mfpml/optimization/sf_cons_bo.py::BayesConsOpt._update_para", "src/mfpml/optimization/sf_cons_bo.py::BayesConsOpt._initialization"]}
{"id": "C29", "title": "Constrained BO: best_x rows attain best but need not be feasible", "statement": "Every row of best_x has objective equal to best and at least one of them is feasible; but an infeasible sample whose objective ties with best is also returned in best_x.", "quantifier": "all histories", "why_tests_cant": "needs a tie between feasible and infeasible samples", "anchors": ["src/mfpml/optimization/sf_cons_bo.py::BayesConsOpt._update_para"]}
{"id": "C30", "title": "Multi-fidelity BO: best is the minimum high-fidelity response", "statement": "mfUnConsBayesOpt.best is always the minimum of the recorded high-fidelity responses, best_x attains it, low-fidelity queries never change best or best_x, and history_best is non-increasing (NaN-free high-fidelity responses).", "quantifier": "all problems, acquisitions and call sequences", "why_tests_cant": "any history", "anchors": ["src/mfpml/optimization/mf_uncons_bo.py::mfUnConsBayesOpt.run_optimizer", "src/mfpml/optimization/mf_uncons_bo.py::mfUnConsBayesOpt._update_para"]}
{"id": "C31", "title": "Multi-fidelity BO bookkeeping", "statement": "Each iteration evaluates exactly one fidelity and appends one row to exactly that fidelity's samples and responses; the number of 0s (1s) in fidelity_query_order equals the growth of the high (low) fidelity data; the initial design arrays are never modified.", "quantifier": "all histories", "why_tests_cant": "any history", "anchors": ["src/mfpml/optimization/mf_uncons_bo.py::mfUnConsBayesOpt.run_optimizer", "src/mfpml/optimization/mf_uncons_bo.py::mfUnConsBayesOpt._update_para"]}
{"id": "C32", "title": "Multi-fidelity BO does nothing by default on problems without a known optimum", "statement": "Since the loop needs error > stopping_error, with an unknown optimum and stopping_error >= 1 (the default) run_optimizer performs no iteration at all, whereas the single-fidelity optimizer with the same arguments performs max_iter; with stopping_error < 1 both run max_iter.", "quantifier": "all problems with optimum None, all max_iter", "why_tests_cant": "default-argument interaction between classes", "anchors": ["src/mfpml/optimization/mf_uncons_bo.py::mfUnConsBayesOpt.run_optimizer", "src/mfpml/optimization/sf_uncons_bo.py::BayesUnConsOpt.run_optimizer"]}
{"id": "C33", "title": "Fidelity selection", "statement": "AugmentedEI/VFEI/VFLCB/ExtendedPI.query return the high-fidelity candidate (fidelity 0) whenever its acquisition optimum is <= the low-fidelity one, otherwise the low-fidelity candidate (fidelity 1); the returned point is the minimiser found for that fidelity; with a user-supplied optimizer query raises UnboundLocalError.", "quantifier": "all surrogates and optimisation outcomes (NaN included)", "why_tests_cant": "all outcomes", "anchors": ["src/mfpml/optimization/mf_acqusitions.py::AugmentedEI.query", "src/mfpml/optimization/mf_acqusitions.py::VFEI.query", "src/mfpml/optimization/mf_acqusitions.py::VFLCB.query", "src/mfpml/optimization/mf_acqusitions.py::ExtendedPI.query"]}
{"id": "C34", "title": "Acquisition query with a user optimizer always fails in single-fidelity classes", "statement": "SFUnConsAcq.query and SFConsAcq.query with a non-None optimizer call eval without its surrogate argument(s) and raise TypeError for every PSO/DE configuration; with optimizer None they return a point of the surrogate's box.", "quantifier": "all optimizers and surrogates", "why_tests_cant": "path never executed by tests", "anchors": ["src/mfpml/optimization/sf_uncons_acqusitions.py::SFUnConsAcq.query", "src/mfpml/optimization/sf_cons_acqusitions.py::SFConsAcq.query"]}
{"id": "C35", "title": "Quadratic basis enumerates every monomial once", "statement": "Quadratic()(x) has (d+1)(d+2)/2 columns and each row is exactly 1, x_1..x_d, followed by x_i*x_j for i <= j in lexicographic order, every pair exactly once; Linear gives 1, x_1..x_d; Ordinary gives 1.", "quantifier": "all numbers of samples and dimensions", "why_tests_cant": "all dimensions", "anchors": ["src/mfpml/models/basis_functions.py::Quadratic.__call__", "src/mfpml/models/basis_functions.py::Linear.__call__", "src/mfpml/models/basis_functions.py::Ordinary.__call__"]}
{"id": "C36", "title": "RBF kernel matrix is a correlation matrix plus jitter", "statement": "For every parameter vector, get_kernel_matrix(X, X) is symmetric, has diagonal exactly 1 + 1e-10 and off-diagonal entries in (0, 1]; entries depend only on differences of rows (translation invariance) and equal exp(-sum_k 10**theta_k (x_k-y_k)**2).", "quantifier": "all sample sets, dimensions, parameters", "why_tests_cant": "all reals", "anchors": ["src/mfpml/models/kernels.py::RBF.get_kernel_matrix"]}
{"id": "C37", "title": "RBF kernel matrix is positive definite for every sample set", "statement": "For every finite set of samples (duplicates allowed) and every theta, the matrix get_kernel_matrix(X,X) + s*I with s >= 0 is symmetric positive definite, so the Cholesky factorisation used by every model succeeds in exact arithmetic.", "quantifier": "all n, d, X, theta, noise levels", "why_tests_cant": "Bochner-type fact over all point sets", "anchors": ["src/mfpml/models/kernels.py::RBF.get_kernel_matrix", "src/mfpml/models/kernels.py::RBF.__call__", "src/mfpml/models/gaussian_process.py::GaussianProcessRegression._update_kernel_matrix"]}
{"id": "C38", "title": "Calling the kernel and setting its parameters agree", "statement": "kernel(X, Y, p) equals get_kernel_matrix(X, Y) after set_params(p), for every kernel history.", "quantifier": "all X, Y, p and previous parameters", "why_tests_cant": "history and all reals", "anchors": ["src/mfpml/models/kernels.py::RBF.__call__", "src/mfpml/models/kernels.py::RBF.set_params", "src/mfpml/models/kernels.py::RBF.get_kernel_matrix"]}
{"id": "C39", "title": "Jitter is added by position, so cross-kernels depend on batch order", "statement": "get_kernel_matrix(X, Y)[i,j] is the pure kernel value plus 1e-10 exactly when i = j, even for unrelated points; hence a GP prediction for a point depends on its position in the batch: predicting row j of a batch differs from predicting that row far down the batch by exactly 1e-10 * gamma_j * y_std.", "quantifier": "all batches and models", "why_tests_cant": "needs exact algebra", "anchors": ["src/mfpml/models/kernels.py::RBF.get_kernel_matrix", "src/mfpml/models/gaussian_process.py::GaussianProcessRegression.predict"]}
{"id": "C40", "title": "GP training cannot fail on non-constant data", "statement": "GaussianProcessRegression.train with the Ordinary basis succeeds (no LinAlgError) for every sample set, every hyper-parameter value the optimiser may return and every noise level, provided the responses are not all equal and the box is non-degenerate (exact arithmetic).", "quantifier": "all n >= 1, d, X, Y, theta, noise", "why_tests_cant": "all data sets", "anchors": ["src/mfpml/models/gaussian_process.py::GaussianProcessRegression.train", "src/mfpml/models/gaussian_process.py::GaussianProcessRegression._update_kernel_matrix"]}
{"id": "C41", "title": "GP interpolates noise-free data", "statement": "With noise 0, predict(X_train) returns exactly Y_train and the returned standard deviation at those points is exactly 0, for every kernel parameter and every basis of full column rank (exact arithmetic).", "quantifier": "all data sets, kernel parameters, bases", "why_tests_cant": "all data sets", "anchors": ["src/mfpml/models/gaussian_process.py::GaussianProcessRegression.predict", "src/mfpml/models/gaussian_process.py::GaussianProcessRegression._update_kernel_matrix"]}
{"id": "C42", "title": "GP trend coefficients are the generalised least squares optimum", "statement": "The fitted beta is the unique minimiser of (y - F b)' K^-1 (y - F b), and sigma2 is that minimum divided by n, hence sigma2 >= 0.", "quantifier": "all data sets and candidate coefficients b", "why_tests_cant": "all b", "anchors": ["src/mfpml/models/gaussian_process.py::GaussianProcessRegression._update_kernel_matrix"]}
{"id": "C43", "title": "GP predictive standard deviation is well defined and bounded", "statement": "The returned std is >= 0 and >= |noise| when the epistemic variance is non-negative; the epistemic variance before clipping is non-negative for every batch row beyond the first n, so clipping only ever acts on jittered rows.", "quantifier": "all data sets and query batches", "why_tests_cant": "all data", "anchors": ["src/mfpml/models/gaussian_process.py::GaussianProcessRegression.predict"]}
{"id": "C44", "title": "GP is equivariant under affine changes of the response unit", "statement": "Training on a*Y + b (a > 0) with the same hyper-parameters changes the predicted mean to a*mean + b and, with noise a*noise, the std to a*std. The objective minimised by the hyper-parameter search is the same function in both units, so the search has no reason to answer differently.", "quantifier": "all a > 0, b, data, query batches", "why_tests_cant": "all reals", "anchors": ["src/mfpml/models/gaussian_process.py::GaussianProcessRegression.train", "src/mfpml/models/gaussian_process.py::GaussianProcessRegression.predict", "src/mfpml/models/gaussian_process.py::GaussianProcessRegression.normalize_output"]}
{"id": "C45", "title": "GP is invariant under affine changes of the input unit", "statement": "Rescaling every input coordinate and the design space by the same increasing affine map leaves the fitted model and predictions unchanged.", "quantifier": "all affine maps, data, query batches", "why_tests_cant": "all reals", "anchors": ["src/mfpml/models/gaussian_process.py::GaussianProcessRegression.normalize_input"]}
{"id": "C46", "title": "Normalisation maps the box to the unit cube and responses to zero mean and unit variance", "statement": "normalize_input maps the design space affinely onto [0,1]^d (corners to corners, order preserved) and is inverted by scaling back; normalize_output yields mean 0 and population variance 1 for every non-constant response vector.", "quantifier": "all boxes, samples and responses", "why_tests_cant": "all reals", "anchors": ["src/mfpml/models/gaussian_process.py::GaussianProcessRegression.normalize_input", "src/mfpml/models/gaussian_process.py::GaussianProcessRegression.normalize_output", "src/mfpml/models/mf_gaussian_process.py::_mfGaussianProcess.normalize_input"]}
{"id": "C47", "title": "Estimated noise is frozen after the first training", "statement": "With noise_prior=None the noise is an optimised hyper-parameter only in the first train call; every later train on new data keeps the first estimate and optimises only the kernel parameters.", "quantifier": "all sequences of train calls and optimiser outcomes", "why_tests_cant": "history property", "anchors": ["src/mfpml/models/gaussian_process.py::GaussianProcessRegression._hyper_paras_optimization", "src/mfpml/models/gaussian_process.py::GaussianProcessRegression._update_kernel_matrix"]}
{"id": "C48", "title": "Multi-start hyper-parameter search keeps the best trial", "statement": "The hyper-parameters used are those of a trial with the smallest objective value among the optimizer_restart+1 trials (the first such); if no trial returns a value below +inf (all NaN/inf) training raises UnboundLocalError.", "quantifier": "all trial outcomes (NaN included) and restart numbers", "why_tests_cant": "all outcomes", "anchors": ["src/mfpml/models/gaussian_process.py::GaussianProcessRegression._hyper_paras_optimization", "src/mfpml/models/hierarchical_kriging.py::HierarchicalKriging._optHyp", "src/mfpml/models/co_kriging.py::_GP._hyper_paras_optimization"]}
{"id": "C49", "title": "Hyper-parameters stay in their declared log-bounds", "statement": "Whatever path is used (multi-start L-BFGS-B whose results respect the bounds, or PSO/DE), the kernel parameters after training are 10**t with t inside the kernel bounds, and a learned noise is within [1e-5, 10] times the response standard deviation.", "quantifier": "all data and optimiser outcomes", "why_tests_cant": "all outcomes", "anchors": ["src/mfpml/models/gaussian_process.py::GaussianProcessRegression._hyper_paras_optimization", "src/mfpml/models/gaussian_process.py::GaussianProcessRegression._update_kernel_matrix"]}
{"id": "C50", "title": "Reported logp versus the optimised likelihood", "statement": "After training with learned or positive noise, -logp equals the optimised objective at the chosen hyper-parameters; for noise 0 it does not: logp uses sigma2 where the objective uses log(sigma2).", "quantifier": "all data sets and hyper-parameters", "why_tests_cant": "all reals", "anchors": ["src/mfpml/models/gaussian_process.py::GaussianProcessRegression._logLikelihood", "src/mfpml/models/gaussian_process.py::GaussianProcessRegression._update_kernel_matrix"]}
{"id": "C51", "title": "Hierarchical Kriging interpolates the high-fidelity data", "statement": "With noise 0, HierarchicalKriging.predict at the high-fidelity training inputs returns the high-fidelity responses exactly and std 0, whatever the low-fidelity model predicts (provided its scaled predictions are not all zero).", "quantifier": "all data, low-fidelity predictions and kernel parameters", "why_tests_cant": "all data", "anchors": ["src/mfpml/models/hierarchical_kriging.py::HierarchicalKriging.predict", "src/mfpml/models/hierarchical_kriging.py::HierarchicalKriging._update_parameters"]}
{"id": "C52", "title": "Hierarchical Kriging reproduces a proportional low-fidelity model", "statement": "If the scaled high-fidelity responses are an exact multiple of the scaled low-fidelity predictions at the training inputs, then beta is that multiple, gamma = 0, sigma2 = 0 and the prediction everywhere is the scaled low-fidelity prediction with zero epistemic std.", "quantifier": "all data and query points", "why_tests_cant": "all reals", "anchors": ["src/mfpml/models/hierarchical_kriging.py::HierarchicalKriging._update_parameters", "src/mfpml/models/hierarchical_kriging.py::HierarchicalKriging.predict"]}
{"id": "C53", "title": "Scaled Kriging mean depends on return_std unless rho = 1", "statement": "predict(X, return_std=True) returns mean rho*lf + disc and interpolates the high-fidelity data for noise 0; predict(X) returns rho*disc + lf, which agrees with it exactly where (rho-1)*(lf - disc) = 0, so the two calls disagree in general when rho is optimised.", "quantifier": "all data, rho, query points", "why_tests_cant": "needs rho <> 1", "anchors": ["src/mfpml/models/scale_kriging.py::ScaledKriging.predict", "src/mfpml/models/scale_kriging.py::ScaledKriging._getDisc"]}
{"id": "C54", "title": "Scaled Kriging error-based rho objective", "statement": "_eval_error(rho) is a convex quadratic in rho whose unconstrained minimiser is <lf,yh>/<lf,lf>; the objective is >= 0 and is 0 iff rho*lf = yh at all high-fidelity samples.", "quantifier": "all data, rho", "why_tests_cant": "all reals", "anchors": ["src/mfpml/models/scale_kriging.py::ScaledKriging._eval_error"]}
{"id": "C55", "title": "Co-Kriging covariance is positive definite", "statement": "For every training set, rho, noise and hyper-parameters with sigma2 values >= 0, the joint covariance plus 1e-10*I is symmetric positive definite, so the joint Cholesky factorisation succeeds (exact arithmetic).", "quantifier": "all data sets and hyper-parameters", "why_tests_cant": "all data", "anchors": ["src/mfpml/models/co_kriging.py::CoKriging._update_parameters"]}
{"id": "C56", "title": "Co-Kriging std depends on how often predict was called", "statement": "Every predict(X, return_std=True) call multiplies the stored noise by yh_std, so the k-th call on the same trained model and inputs returns sqrt(epis^2 + (noise*yh_std^k)^2): calls are not idempotent unless noise = 0 or yh_std = 1; predict without std has no side effect.", "quantifier": "all models and call sequences", "why_tests_cant": "history property", "anchors": ["src/mfpml/models/co_kriging.py::CoKriging.predict"]}
{"id": "C57", "title": "Co-Kriging rescales a given noise on every training", "statement": "With a numeric noise_prior every train call divides the stored noise by the current yh_std, so after k trainings on the same data the noise is noise/yh_std^k; with 0 it stays 0.", "quantifier": "all train sequences", "why_tests_cant": "history property", "anchors": ["src/mfpml/models/co_kriging.py::CoKriging.train"]}
{"id": "C58", "title": "Expected improvement formula is the expectation of the improvement", "statement": "u*Phi(u/s) + s*phi(u/s) with u = f_min - mean equals the expectation of max(f_min - Y, 0) for Y normal with that mean and deviation s; it is >= max(u,0) and increases with u and with s. EI.eval returns minus that expectation up to 5e-10 for every trained surrogate and every batch (it adds 1e-9 to s in the ratio), so the point with the smallest value has the largest expected improvement up to 1e-9; at the samples of a noise-free model the value is 0 or positive.", "quantifier": "all f_min, means, deviations >= 0, batches, trained models", "why_tests_cant": "all reals, improper integral", "anchors": ["src/mfpml/optimization/sf_uncons_acqusitions.py::EI.eval", "src/mfpml/optimization/sf_cons_acqusitions.py::CEI.ei", "src/mfpml/optimization/mf_acqusitions.py::VFEI.eval"]}
{"id": "C59", "title": "Probability of improvement and of feasibility are probabilities", "statement": "-PI.eval is in (0,1), is the probability that a normal variable with the predicted mean and deviation + 1e-9 is below f_min, and is monotone in f_min - mean; at one point CEI.pof is the product of the probabilities that each constraint is <= 0, lies in (0,1] and decreases when a constraint mean increases; CEI.eval at one point is EI.eval times pof; with no constraints pof = 1 and CEI reduces to EI.", "quantifier": "all predictions", "why_tests_cant": "all reals", "anchors": ["src/mfpml/optimization/sf_uncons_acqusitions.py::PI.eval", "src/mfpml/optimization/sf_cons_acqusitions.py::CEI.pof", "src/mfpml/optimization/sf_cons_acqusitions.py::CEI.eval"]}
{"id": "C60", "title": "Lower confidence bound", "statement": "LCB.eval is kappa0*mean - kappa1*std: non-increasing in std for kappa1 >= 0, <= kappa0*mean, and on training points of a noise-free model equals kappa0*y; VFLCB uses the high-fidelity mean for both fidelities and cost_ratio*std_lf as deviation for low fidelity, so at one point low fidelity is preferred iff cost_ratio*std_lf > std_hf.", "quantifier": "all predictions, kappas >= 0", "why_tests_cant": "all reals", "anchors": ["src/mfpml/optimization/sf_uncons_acqusitions.py::LCB.eval", "src/mfpml/optimization/mf_acqusitions.py::VFLCB.eval"]}
{"id": "C61", "title": "Goldstein-Price optimum", "statement": "GoldPrice.f is at least its declared optimum 3 everywhere, with equality exactly at (0,-1), which is in the domain; the declared optimum_scheme (0, 1) is not a minimiser: f there is 28611.", "quantifier": "all points of the plane", "why_tests_cant": "global optimality", "anchors": ["src/mfpml/problems/sf_functions.py::GoldPrice.f"]}
{"id": "C62", "title": "Ackley optimum for every dimension and parameters", "statement": "For a non-empty point and a, b >= 0, Ackley's f is a number >= 0; f(0) = 0 in every dimension and, for a, b > 0, only there; Ackley(num_dim, a, b, c) with num_dim > 0 declares optimum 0 at the origin. Dimension 0 is accepted and declares a NaN optimum.", "quantifier": "all dimensions, parameters, points", "why_tests_cant": "global optimality", "anchors": ["src/mfpml/problems/sf_functions.py::Ackley.f", "src/mfpml/problems/sf_functions.py::Ackley.__update_parameters"]}
{"id": "C63", "title": "Branin optimum", "statement": "Branin.f >= 5/(4 pi) everywhere; within the domain it is equal to it exactly at (-pi,12.275), (pi,2.275) and (3 pi,2.475); the declared optimum 0.397887 and f at the three declared places are within 1e-6 of it.", "quantifier": "all points", "why_tests_cant": "global optimality", "anchors": ["src/mfpml/problems/sf_functions.py::Branin.f"]}
{"id": "C64", "title": "Thevenot's declared optimum is not optimal in dimension >= 2", "statement": "The declared optimum f(0) = -1 is the global minimum over the domain for num_dim = 1 (attained only at 0, for beta >= 2 pi), but for every num_dim >= 2 there are points of the domain with f < f(0); -2 is a strict lower bound in every dimension.", "quantifier": "all dimensions", "why_tests_cant": "global optimality", "anchors": ["src/mfpml/problems/sf_functions.py::Thevenot.f"]}
{"id": "C65", "title": "AckleyN2 declares optimum and optimum_scheme swapped", "statement": "AckleyN2.f >= -200 with equality exactly at the origin, i.e. the true optimum value is stored in optimum_scheme and the optimiser in optimum; consequently the stopping test of the Bayesian optimiser cannot evaluate a scalar error for this problem.", "quantifier": "all points", "why_tests_cant": "global optimality", "anchors": ["src/mfpml/problems/sf_functions.py::AckleyN2.f", "src/mfpml/optimization/sf_uncons_bo.py::BayesUnConsOpt.__update_error"]}
{"id": "C66", "title": "Booth, Bohachevsky and Himmelblau high-fidelity optima", "statement": "mf_Booth.hf is at least its declared optimum 0 with equality exactly at its declared place (1,3); the same for mf_Bohachevsky.hf at (0,0); mf_Himmelblau.hf >= 0 with equality exactly where x1^2+x2 = 11 and x1+x2^2 = 7, for example at (3,2) in the domain.", "quantifier": "all points", "why_tests_cant": "global optimality", "anchors": ["src/mfpml/problems/mf_functions.py::mf_Booth.hf", "src/mfpml/problems/mf_functions.py::mf_Bohachevsky.hf", "src/mfpml/problems/mf_functions.py::mf_Himmelblau.hf"]}
{"id": "C67", "title": "Forrester optimum", "statement": "On [0,1] the Forrester function is at least its declared optimum -6.020740 minus 1e-6, and at the declared optimum_scheme it is within 1e-6 of the declared optimum.", "quantifier": "all x in [0,1]", "why_tests_cant": "global optimality", "anchors": ["src/mfpml/problems/sf_functions.py::Forrester.f", "src/mfpml/problems/mf_functions.py::Forrester_1a.hf"]}
{"id": "C68", "title": "Six-hump camel and Sasena optima", "statement": "On the declared domains (both the single- and the multi-fidelity one) Sixhump.f is at least its declared optimum minus 5e-5 and the two declared places attain it up to 5e-5. On its domain Sasena.f is at least its declared optimum minus 0.0035 and the declared place attains it up to 5e-5.", "quantifier": "all points of the domains", "why_tests_cant": "global optimality", "anchors": ["src/mfpml/problems/sf_functions.py::Sixhump.f", "src/mfpml/problems/sf_functions.py::Sasena.f"]}
{"id": "C69", "title": "Hartman functions", "statement": "Hartman3.f is in [-8.4, 0) everywhere and at least its declared optimum minus 0.02 on the domain; the declared place misses the declared optimum by 1.0e-4 to 1.5e-4 although another domain point is within 1e-6 of it. Hartman6.f is defined everywhere (its log argument is positive), is >= -log(8.4) and is within 1e-6 of the declared optimum at the declared place; mf_Hartman6.lf is defined everywhere and >= -log(7.4).", "quantifier": "all points", "why_tests_cant": "all reals", "anchors": ["src/mfpml/problems/sf_functions.py::Hartman3.f", "src/mfpml/problems/sf_functions.py::Hartman6.f"]}
{"id": "C70", "title": "Benchmarks are defined on their whole declared domain, except Park91A", "statement": "On their declared domains mf_Borehole.hf/lf and mf_CurrinExp.hf/lf never divide by zero or take the log of a non-positive number; mf_Park91A.hf/lf do so exactly at the domain points with x1 = 0.", "quantifier": "all points of the domains", "why_tests_cant": "all reals", "anchors": ["src/mfpml/problems/mf_functions.py::mf_Borehole.base", "src/mfpml/problems/mf_functions.py::mf_CurrinExp.hf", "src/mfpml/problems/mf_functions.py::mf_Park91A.hf", "src/mfpml/problems/mf_functions.py::mf_Park91B.hf"]}
{"id": "C71", "title": "Constructing a second instance changes the first (Ackley, Thevenot)", "statement": "For any sequence of constructions, the dimension, domain, optimum and optimum place that any existing Ackley (or Thevenot) object reports through the getters are those of the most recent successful construction; the objects keep their own parameters, num_dim and input_domain; a negative dimension raises AssertionError and changes nothing; so two objects of different dimension leave the first reporting a dimension that is not its own.", "quantifier": "all sequences of constructions", "why_tests_cant": "history of shared class state", "anchors": ["src/mfpml/problems/sf_functions.py::Ackley.__update_parameters", "src/mfpml/problems/sf_functions.py::Thevenot.__update_parameters", "src/mfpml/problems/functions.py::Functions._input_domain"]}
{"id": "C72", "title": "Constrained Branin problems", "statement": "Branin_1's declared place is in the domain and feasible, its objective there is within 1e-4 of the declared optimum, and no feasible domain point is lower than the declared optimum by more than 1e-4. Branin_2's declared place violates its constraint: its objective value there is 0.045 to 0.046 below the declared optimum and below that of every feasible domain point; feasible points are at least the declared optimum minus 0.041, and one is at most 0.01 above it. The objective is at least 5/(4 pi) + 5 u.", "quantifier": "all points", "why_tests_cant": "numeric facts about transcendental functions", "anchors": ["src/mfpml/problems/sf_cons_functions.py::Branin_1.f", "src/mfpml/problems/sf_cons_functions.py::Branin_1.f_cons", "src/mfpml/problems/sf_cons_functions.py::Branin_2.f_cons"]}
{"id": "C73", "title": "Multi-fidelity problem call dispatch", "statement": "problem(X) evaluates hf on X[0] and lf on X[1], returns min(len(X),2) arrays in that order and silently ignores further levels; mfArray.size/n_levels/hf report exactly the stored levels, and hf of an empty array raises IndexError.", "quantifier": "all lists", "why_tests_cant": "all list lengths", "anchors": ["src/mfpml/problems/mf_functions.py::MultiFidelityFunctions.__call__", "src/mfpml/core/data.py::mfArray"]}
{"id": "C74", "title": "PSO records exactly what it evaluated", "statement": "all_samples[g] and all_responses[g] of PSO.run_optimizer are the population passed to the objective in call g and the responses it returned, for every generation actually run.", "quantifier": "all objectives, draws, generations, stopping errors", "why_tests_cant": "every generation of every run", "anchors": ["src/mfpml/optimization/evolutionary_algorithms.py::PSO.run_optimizer"]}
{"id": "C75", "title": "NaN responses in Bayesian optimisation", "statement": "Once the single-fidelity optimizer has recorded a NaN response its best is NaN for ever, and with a known optimum every later run_optimizer call does nothing. The multi-fidelity optimizer ignores NaN high-fidelity responses found after a NaN-free initial design: best stays the minimum of the other responses and is attained.", "quantifier": "all problems, acquisitions, histories, call sequences", "why_tests_cant": "NaN propagation along any history", "anchors": ["src/mfpml/optimization/sf_uncons_bo.py::BayesUnConsOpt.run_optimizer", "src/mfpml/optimization/sf_uncons_bo.py::BayesUnConsOpt._update_para", "src/mfpml/optimization/mf_uncons_bo.py::mfUnConsBayesOpt.run_optimizer", "src/mfpml/optimization/mf_uncons_bo.py::mfUnConsBayesOpt._update_para"]}
{"id": "C76", "title": "Going on after an exception", "statement": "If a query, an objective evaluation or a training raises inside run_optimizer and the caller calls it again: the single-fidelity optimizer's samples and responses stay aligned and best is the minimum again after the next completed iteration; the multi-fidelity optimizer permanently ignores a high-fidelity response whose re-training failed, so best need not be the minimum recorded.", "quantifier": "all failure points and call sequences", "why_tests_cant": "crash points", "anchors": ["src/mfpml/optimization/sf_uncons_bo.py::BayesUnConsOpt.run_optimizer", "src/mfpml/optimization/mf_uncons_bo.py::mfUnConsBayesOpt.run_optimizer"]}
{"id": "C77", "title": "Surrogate and acquisition pairs that cannot be used", "statement": "mfUnConsBayesOpt with a CoKriging surrogate raises AttributeError on its first query (the surrogate has no attribute bound), and VFEI with a ScaledKriging surrogate raises ValueError; no objective is evaluated and best is unchanged.", "quantifier": "all problems, data and iteration budgets >= 1", "why_tests_cant": "class combinations over all data", "anchors": ["src/mfpml/optimization/mf_acqusitions.py::AugmentedEI.query", "src/mfpml/optimization/mf_acqusitions.py::VFEI.eval", "src/mfpml/models/co_kriging.py::CoKriging"]}
{"id": "C78", "title": "Bayesian optimisation of AckleyN2", "statement": "The optimum attribute of AckleyN2 is a two-element list, so BayesUnConsOpt.run_optimizer raises ValueError (ambiguous truth value) for every max_iter >= 1, every threshold and every history, without changing the optimizer.", "quantifier": "all budgets, thresholds, histories", "why_tests_cant": "all inputs", "anchors": ["src/mfpml/optimization/sf_uncons_bo.py::BayesUnConsOpt.run_optimizer", "src/mfpml/optimization/sf_uncons_bo.py::BayesUnConsOpt.__update_error", "src/mfpml/problems/sf_functions.py::AckleyN2"]}
{"id": "C79", "title": "Which Sobol points are used", "statement": "SobolSequence.get_samples(n) returns points number num_skip, ..., num_skip+n-1 of the seeded sequence, scaled; the default num_skip is the number of dimensions. Every non-nested MFSobolSequence level does the same, but when the design space is given as a list of arrays the default num_skip is the number of fidelities, not of dimensions.", "quantifier": "all seeds, spaces, counts, skips", "why_tests_cant": "all parameters", "anchors": ["src/mfpml/design_of_experiment/sf_samplers.py::SobolSequence.get_samples", "src/mfpml/design_of_experiment/mf_samplers.py::MFSobolSequence"]}
{"id": "C80", "title": "A Bayesian optimization whose parts work runs to completion", "statement": "If every query returns points of the problem's dimension, the objectives return one response per point (and the constraints one row of num_cons values per point), no surrogate training raises, and the known optimum is None or a number, then building the unconstrained, the constrained and the multi-fidelity optimizer on non-empty designs succeeds and every later run_optimizer call returns without an exception.", "quantifier": "all query, objective, constraint and training behaviours of that kind, all designs, all histories of run_optimizer calls with any max_iter and stopping_error", "why_tests_cant": "must hold for every sequence of calls and every array size; a shape error may appear only after many iterations", "anchors": ["src/mfpml/optimization/sf_uncons_bo.py::BayesUnConsOpt.run_optimizer", "src/mfpml/optimization/sf_cons_bo.py::BayesConsOpt.run_optimizer", "src/mfpml/optimization/mf_uncons_bo.py::mfUnConsBayesOpt.run_optimizer"]}
{"id": "C81", "title": "Co-Kriging at its own samples", "statement": "Co-Kriging does not quite interpolate: predict at the high-fidelity training inputs returns Yh - (1e-10 + sigma2*noise^2)*alpha_h*yh_std with alpha = (C + 1e-10 I)^-1 (y - mu); the low-fidelity side (predict_lf) interpolates the low-fidelity responses exactly with std 0 when the noise is 0.", "quantifier": "all data sets, noises and hyper-parameters", "why_tests_cant": "It quantifies over all data, searches and query points, and over real-valued matrices no test suite enumerates.", "anchors": ["src/mfpml/models/co_kriging.py: CoKriging.predict, predict_lf, _update_parameters"]}
{"id": "C82", "title": "Correlation used by the augmented acquisitions", "statement": "The fidelity-0 correlation of a ScaledKriging model is exp(-sum (x-x')^2) on scaled inputs (plus the jitter on equal row numbers) after any sequence of trainings: its kernel is never trained. That of HierarchicalKriging uses the trained parameters 10**theta. The fidelity-1 correlation of both uses the parameters trained for the low-fidelity model. Any fidelity above 1 gives None instead of the intended ValueError.", "quantifier": "all training histories and query points", "why_tests_cant": "A fixed test cannot show that no history trains the kernel.", "anchors": ["src/mfpml/models/mf_gaussian_process.py: _eval_corr", "src/mfpml/models/scale_kriging.py: ScaledKriging", "src/mfpml/models/hierarchical_kriging.py: HierarchicalKriging"]}
{"id": "C83", "title": "When Hierarchical Kriging trains, and its predicted std", "statement": "With non-constant responses and usable searches, HierarchicalKriging.train succeeds iff some low-fidelity prediction at a high-fidelity sample differs from the mean high-fidelity response. The mean is the best linear unbiased prediction with the scaled low-fidelity prediction as trend, the returned std is sqrt(epistemic^2 + noise^2) >= |noise|, a given noise is kept, and a learned one is sigma*yh_std.", "quantifier": "all data, searches and query points", "why_tests_cant": "It quantifies over all data, searches and query points, and over real-valued matrices no test suite enumerates.", "anchors": ["src/mfpml/models/hierarchical_kriging.py: train, predict, _update_parameters"]}
{"id": "C84", "title": "Co-Kriging training and prediction succeed", "statement": "With at least one low-fidelity sample, non-constant high-fidelity responses and usable searches, CoKriging.train never raises, and predict (with and without std) of the trained model never raises.", "quantifier": "all data, searches, noises and query points", "why_tests_cant": "It quantifies over all data, searches and query points, and over real-valued matrices no test suite enumerates.", "anchors": ["src/mfpml/models/co_kriging.py: CoKriging.train, _update_parameters, predict; _GP.train"]}
{"id": "C85", "title": "Scaled Kriging's search for rho", "statement": "An unknown rho_method ends train with UnboundLocalError. With rho_method='bumpiness' and a noise to be learned, the noise kept is the one of the first rho the search tries, not of the rho it chooses; a given noise is never changed.", "quantifier": "all data and searches", "why_tests_cant": "It depends on the whole sequence of values a search tries.", "anchors": ["src/mfpml/models/scale_kriging.py: _rho_optimize, _eval_bumpiness, _train_hf"]}
{"id": "C86", "title": "Co-Kriging's logp and its objective", "statement": "After training, logp is minus the searched objective at the chosen parameters when the noise is 0, and differs from it by nh/2*(sigma2 - ln sigma2) when the noise was learned. For a given noise s other than 0 the search minimises the objective with noise s/std^2, but the fitted model has noise s/std, where std is the standard deviation of the high-fidelity responses.", "quantifier": "all data and searches", "why_tests_cant": "It quantifies over all data, searches and query points, and over real-valued matrices no test suite enumerates.", "anchors": ["src/mfpml/models/co_kriging.py: _logLikelihood, _update_parameters"]}
{"id": "C87", "title": "Variable-fidelity EI ignores the low-fidelity deviation", "statement": "VFEI.eval for fidelity 1 is either 0 (where beta*std_lf is below eps) or the same number as for fidelity 0: the low-fidelity deviation and the cost ratio do not enter the improvement. When the fitted scale factor beta is not positive the low-fidelity value is 0 everywhere. Surrogates other than hierarchical Kriging raise ValueError.", "quantifier": "all trained hierarchical Kriging models, batches, f_min", "why_tests_cant": "every model and point; negative scale factors need opposite trends", "anchors": ["src/mfpml/optimization/mf_acqusitions.py::VFEI.eval"]}
{"id": "C88", "title": "Constrained EI only accepts one point", "statement": "CEI.eval with at least one constraint raises ValueError for every batch whose size is not 1; without constraints a batch of m points gives an m by m array.", "quantifier": "all surrogates, batches", "why_tests_cant": "all batch sizes", "anchors": ["src/mfpml/optimization/sf_cons_acqusitions.py::CEI.eval", "src/mfpml/optimization/sf_cons_acqusitions.py::CEI.pof"]}
{"id": "C89", "title": "Unknown fidelities are not reported as ValueError", "statement": "For a fidelity other than 0 and 1 VFLCB.eval and VFEI.eval raise UnboundLocalError, AugmentedEI.eval and ExtendedPI.eval raise TypeError, on every trained surrogate; the ValueError that is built is never raised.", "quantifier": "all trained surrogates, fidelities >= 2, batches", "why_tests_cant": "all inputs", "anchors": ["src/mfpml/optimization/mf_acqusitions.py::VFLCB.eval", "src/mfpml/optimization/mf_acqusitions.py::VFEI.eval", "src/mfpml/optimization/mf_acqusitions.py::AugmentedEI.eval", "src/mfpml/optimization/mf_acqusitions.py::ExtendedPI.eval"]}
{"id": "C90", "title": "Augmented EI", "statement": "For fidelity 0 AugmentedEI.eval is minus the expected improvement below the prediction at the first sample (of either fidelity) with the smallest mean + std, and 0 where std is below eps; for fidelity 1 it is that value times cost_ratio*std_lf/(|mean_hf - mean_lf| + std_hf), and not a number where that denominator is 0, e.g. at every sample of a noise-free model whose fidelities agree.", "quantifier": "all trained multi-fidelity surrogates, batches, cost ratios", "why_tests_cant": "all models; NaN only at special points", "anchors": ["src/mfpml/optimization/mf_acqusitions.py::AugmentedEI.eval", "src/mfpml/optimization/mf_acqusitions.py::AugmentedEI._effective_best", "src/mfpml/optimization/mf_acqusitions.py::AugmentedEI.corr"]}
{"id": "C91", "title": "Extended PI rewards closeness to samples", "statement": "ExtendedPI.eval for fidelity 0 is minus the probability of improvement times the product of the correlations with all high-fidelity samples: with equal prediction, a point more correlated with the samples is never worse, and no sample is excluded (the value stays negative where std >= eps). For fidelity 1 the fidelity correlation and the cost ratio are factors too.", "quantifier": "all trained hierarchical Kriging models, points, f_min, cost ratios", "why_tests_cant": "all models and points", "anchors": ["src/mfpml/optimization/mf_acqusitions.py::ExtendedPI.eval", "src/mfpml/optimization/mf_acqusitions.py::ExtendedPI.corr", "src/mfpml/models/mf_gaussian_process.py::_mfGaussianProcess._eval_corr"]}
{"id": "C92", "title": "Cost ratio", "statement": "The cost ratio a multi-fidelity problem computes from cost = [c0, c1] is the integer nearest to c0/c1, the even one on a tie; it is 0 whenever the high-fidelity cost is at most half the low-fidelity one; c1 = 0 raises ZeroDivisionError.", "quantifier": "all real costs", "why_tests_cant": "rounding behaviour at ties and below one half matters for every pair of costs", "anchors": ["src/mfpml/problems/mf_functions.py: Forrester_1a.__init__", "src/mfpml/problems/mf_functions.py: mf_Hartman6.__init__"]}
{"id": "C93", "title": "Relations between fidelities", "statement": "The low-fidelity Forrester variants are hf-5, hf/2+10(x-1/2)-5 and hf(x+1/5); the low fidelities of Sixhump, Bohachevsky, Booth and Himmelblau are the high fidelity at scaled variables plus a correction; the 1-D correlation problems satisfy hf = (x-sqrt 2) lf^2 and hf = x^2 + lf(x+1/80)^2; Park91A's lf is an affine transform of hf; Park91B's lf is below hf exactly where hf < 5, and hf >= 2/3 on the domain; both fidelities of the discontinuous problem really jump at 1/2.", "quantifier": "all real inputs", "why_tests_cant": "identities between two functions over all reals", "anchors": ["src/mfpml/problems/mf_functions.py: lf", "src/mfpml/problems/mf_functions.py: hf"]}
{"id": "C94", "title": "Problems evaluate batches row by row", "statement": "For every fixed-dimension problem and every (n, num_dim) array, f (or hf) returns an (n, 1) column whose entry i is the problem's value at row i; the same for lf of every multi-fidelity problem and f_cons of Branin_1 and Branin_2; the functions a problem does not define raise NotImplementedError. At every point of the declared domain the value is a number, except Park91A where x1 = 0.", "quantifier": "all problems, batch sizes and points", "why_tests_cant": "batches of every size and content", "anchors": ["src/mfpml/problems/sf_functions.py: f", "src/mfpml/problems/mf_functions.py: hf, lf", "src/mfpml/problems/sf_cons_functions.py: f, f_cons", "src/mfpml/problems/functions.py: Functions"]}
{"id": "C95", "title": "Problem constructors", "statement": "Every declared input_domain has num_dim rows with lower < upper. A fixed-dimension problem can be constructed exactly with num_dim equal to its own (AssertionError otherwise); with a cost argument the cost ratio is stored and a zero low-fidelity cost raises ZeroDivisionError, before the dimension is checked in mf_Sixhump and mf_Hartman6 and after it in the others. AckleyN2 accepts every non-negative dimension although it is a function of two variables.", "quantifier": "all problems, dimensions and costs", "why_tests_cant": "all integers and costs", "anchors": ["src/mfpml/problems/sf_functions.py: is_dim_compatible", "src/mfpml/problems/mf_functions.py: MultiFidelityFunctions.is_dim_compatible, __init__"]}
{"id": "C96", "title": "Arrays of other shapes", "statement": "Problems written with columns ignore columns beyond their dimension and raise IndexError when one is missing; those using atleast_2d treat a vector as one point, the others raise IndexError; the Hartman functions read an (n, 1) array as points with equal coordinates and raise ValueError for other widths; Forrester reads a vector as n points and raises ValueError for wider arrays; ContinuousNonlinearCorrelation1D and PhaseShiftedOscillations silently return n*k values for an (n, k) array. AckleyN2 raises ValueError for a vector of another length than 2.", "quantifier": "all problems and array shapes", "why_tests_cant": "all shapes", "anchors": ["src/mfpml/problems/sf_functions.py: f", "src/mfpml/problems/mf_functions.py: hf"]}
{"id": "C97", "title": "Integer arrays change mf_CurrinExp.lf", "statement": "At every point of the domain with integer coordinates, mf_CurrinExp.lf of an integer array differs by more than 1e-4 from lf of the same point given as floats, because shifted coordinates are stored back into the integer array. It is the mean of hf at (x1 + 0.05, x2 + 0.05), (x1, max(0, x2 - 1)), (max(0, x1 - 1), x2) and (x1 - 0.05, x2 - 0.05).", "quantifier": "all integer points of the domain", "why_tests_cant": "needs all integer points and real analysis of the difference", "anchors": ["src/mfpml/problems/mf_functions.py: mf_CurrinExp.lf"]}
{"id": "C98", "title": "Values of the multi-fidelity benchmarks on their domains", "statement": "On the domain mf_Hartman3.lf is between 0.162 and 0.655 (its values at two corners) while hf is negative; mf_Hartman6.lf is hf at scaled variables up to ln 1.1 below and ln 1.5 above; mf_CurrinExp.hf is a product of functions of each variable, lf the product of their averages over two neighbours, both in (0, 13.7988] and hf decreasing in x2; mf_Park91A.hf increases in each variable and is at most 25.5893; mf_Park91B.hf is between 2/3 and 2/3 e^2 + 1; mf_Borehole.hf is in [7, 310] and lf is 5/(2 pi) hf up to 2e-5; the 1-D correlation problems lie in [-sqrt 2, 0] and [x^2, x^2+1].", "quantifier": "all points of the domains", "why_tests_cant": "real-valued domains", "anchors": ["src/mfpml/problems/mf_functions.py: hf, lf"]}
{"id": "C99", "title": "The kernel matrix computed in binary64 is accurate and positive definite", "statement": "For scaled points and length-scale parameters up to a bound W, every entry of the RBF kernel matrix computed in floating point is finite and within an explicit number of rounding units of exp(-sum_k w_k (x_k - y_k)^2), plus 1e-10 on the diagonal. For training sets whose size satisfies an explicit bound in n, d and W the computed covariance matrix (kernel plus squared noise on the diagonal) is positive definite, even when points are repeated. Without a limit on the parameters this is false: two points of [0, 1] and the parameter 2^24 give an entry between the two points that exceeds both diagonal entries.", "quantifier": "All point sets of any dimension, all parameters, all noise levels up to 2^400, every order of summation and every use of fused multiply-add in np.sum and np.dot, every np.exp accurate to one unit in the last place.", "why_tests_cant": "Rounding errors depend on the data, on the summation order of the BLAS and on the CPU; a test sees one combination.", "anchors": ["src/mfpml/models/kernels.py: RBF.__call__, RBF.get_kernel_matrix", "src/mfpml/models/gaussian_process.py: GaussianProcessRegression._logLikelihood, GaussianProcessRegression._update_kernel_matrix"]}
{"id": "C100", "title": "The Cholesky factorisation of the computed covariance matrix does not fail", "statement": "Under the size bound of C99 the call np.linalg.cholesky on the covariance matrix computed in binary64 does not raise LinAlgError, for any correctly rounded implementation (any order of summation, blocked or recursive, with or without fused multiply-add, with quotients or products by reciprocals). The factor is finite, its diagonal is positive, and it reproduces the matrix up to 1e-10 relative to the largest diagonal entry. Without the bound on the parameters this is false: for two points of [0, 1] and the parameter 2^24 every implementation raises LinAlgError.", "quantifier": "All training sets within the size bound, all implementations of the factorisation covered by the contract.", "why_tests_cant": "Whether the factorisation survives rounding depends on the points and the BLAS; near-duplicate points that break it are hard to hit by testing.", "anchors": ["src/mfpml/models/gaussian_process.py: GaussianProcessRegression._logLikelihood, GaussianProcessRegression._update_kernel_matrix", "src/mfpml/models/kernels.py: RBF.__call__"]}
{"id": "C101", "title": "Normalised samples lie in [0, 1] in floating point", "statement": "Input normalisation in binary64 maps every point of the design space to coordinates in [0, 1] without exceeding either end by rounding, maps the lower bounds to 0 and the upper bounds to 1 exactly, and keeps the order of coordinates. Consequently every training set inside the design space that satisfies the size bound of C99 can be factored.", "quantifier": "All boxes with finite bounds, non-degenerate intervals and finite widths, and all points inside, at any magnitude.", "why_tests_cant": "Rounding could push a boundary sample outside [0, 1] for particular bounds only.", "anchors": ["src/mfpml/models/gaussian_process.py: GaussianProcessRegression.normalize_input"]}
{"id": "C102", "title": "Plots of samples show everything or fail before showing anything", "statement": "The sampler plots accept one to three dimensions and otherwise raise ValueError without drawing. A multi-fidelity plot of up to five levels draws each level exactly once and with all its samples, lower fidelities first so that level 0 is on top, and any two levels differ in colour, marker and size. With six or more levels the call raises IndexError and no level is drawn. A figure is shown or written to the file exactly when the call returns normally.", "quantifier": "All sample arrays, numbers of levels and dimensions, both output modes.", "why_tests_cant": "The tests plot one or two levels; the colour list runs out at six.", "anchors": ["src/mfpml/visualization/samplers_visualization.py: SFSamplerVisualization, MFSamplerVisualization"]}
{"id": "C103", "title": "kronDelta is a tolerance test, not equality", "statement": "kronDelta is reflexive and symmetric; points it identifies agree in every coordinate up to 2^-23; on points whose coordinates are equal or at least 2^-23 apart it is equality. It is not transitive.", "quantifier": "All pairs of points of any dimension, exact arithmetic.", "why_tests_cant": "Tests use well separated points, where the tolerance never matters.", "anchors": ["src/mfpml/models/kernels.py: kronDelta"]}
{"id": "C104", "title": "Equal or non-finite responses cannot be scaled", "statement": "A Gaussian process trained on one sample, or on two samples with equal responses, scales the responses to NaN. Any number of equal responses (of magnitude between 2^-400 and 2^400) is scaled to NaN throughout or to one number within 2^-30 of 1 or -1, never to 0; three responses 0.1 give -1. One infinite or NaN response turns all scaled responses into NaN.", "quantifier": "All finite responses, all numbers of samples up to 2^20, all orders of summation, binary64 rounding.", "why_tests_cant": "Tests train on responses that vary; whether the computed mean equals a constant response depends on the last bit and on the number of samples.", "anchors": ["src/mfpml/models/gaussian_process.py: GaussianProcessRegression.normalize_output, y_mean, y_std"]}
{"id": "C105", "title": "Scaling responses is accurate, monotone and reversible in binary64", "statement": "If two responses differ by at least 2^-400, the mean and standard deviation are finite and within stated distances of the exact ones, the scaled responses are finite, at most sqrt(n)(1 + 2^-30) in magnitude, keep the order of the responses and have mean square 1 up to 2^-29; undoing the scaling as predict does returns each response to within 2^-50 of the largest magnitude. Responses that differ by less may be scaled to infinities.", "quantifier": "All lists of up to 2^20 responses of magnitude up to 2^400, all orders of summation, binary64 rounding.", "why_tests_cant": "Rounding errors depend on the values, their number and the summation order; tests look at a few well scaled data sets.", "anchors": ["src/mfpml/models/gaussian_process.py: GaussianProcessRegression.normalize_output, predict, y_mean, y_std"]}
{"id": "C106", "title": "What a failed Gaussian process training leaves behind", "statement": "A training call on responses that are not all equal can only raise UnboundLocalError (no search found a finite objective) or LinAlgError. When it raises, the stored samples and responses have been replaced and every other attribute, including kernel parameters, noise and coefficients, is as before the call. Before any successful training predictions then raise AttributeError. After a success, predictions raise ValueError if the failed call had another number of samples; with the same sites they return the old predictions re-expressed in the mean and standard deviation of the new responses, so the model reproduces neither the old nor the new responses: a failed training is not undone.", "quantifier": "All histories of training calls whose exceptions the caller catches, all data sets with responses not all equal, all basis functions, all behaviours of the search that return only points it evaluated.", "why_tests_cant": "A test would have to make a training fail at a chosen point and compare every attribute; the failure depends on the data and the random restarts.", "anchors": ["src/mfpml/models/gaussian_process.py: GaussianProcessRegression.train, predict, _hyper_paras_optimization, _update_kernel_matrix"]}
{"id": "C107", "title": "Failed trainings do not disturb later trainings of a Gaussian process", "statement": "A training call after any history of calls, some of which failed and were caught, raises exactly when it raises after the successful calls alone, with the same exception, and otherwise leads to a model with the same predictions and standard deviations. With a given noise value the whole history is irrelevant: the call does what it does on a new object.", "quantifier": "All lists of training calls, successes and failures interleaved, exact arithmetic.", "why_tests_cant": "It quantifies over unbounded histories and over where each call fails.", "anchors": ["src/mfpml/models/gaussian_process.py: GaussianProcessRegression.train, predict"]}
{"id": "C108", "title": "Failed trainings of a hierarchical Kriging model", "statement": "A training that fails in the low-fidelity stage replaces only the data of the low-fidelity model. One that fails in the high-fidelity stage leaves the newly trained low-fidelity model, the new high-fidelity data and the new trend column together with the old kernel, coefficients and factorisation. Low-fidelity predictions then work; high-fidelity predictions raise ValueError if the number of high-fidelity samples changed, and otherwise combine the new trend with the old coefficient and the old correction. So after a failed call with unchanged high-fidelity data the model may no longer reproduce these data. With a given noise value a later training does what it does on a new object.", "quantifier": "All histories of training calls, all data sets with responses not all equal, all behaviours of the searches that return only points they evaluated.", "why_tests_cant": "Needs a failure in one chosen stage, and a comparison of all attributes and predictions afterwards.", "anchors": ["src/mfpml/models/hierarchical_kriging.py: HierarchicalKriging._train_hf, predict, _update_parameters", "src/mfpml/models/mf_gaussian_process.py: _mfGaussianProcess.train, _train_lf, predict_lf"]}
{"id": "C109", "title": "Failed trainings of a Co-Kriging model", "statement": "A training that fails leaves the new data, their mean and standard deviation and the divided noise in the object. If the low-fidelity stage failed, the low-fidelity model keeps its old fit beside its new data; if the high-fidelity stage failed, the low-fidelity model is the new one. Predictions before any successful training raise AttributeError. After a success and then a failure they return numbers exactly when the two calls had the same total number of samples, and raise ValueError otherwise. If the sites are the same and the low-fidelity stage failed, the predictions are the old ones moved and scaled to the mean and standard deviation of the new responses. So a failed training does not leave the old model in force.", "quantifier": "All histories of calls, all sizes, all data sets whose high-fidelity responses are not all equal, all behaviours of the searches, exact arithmetic.", "why_tests_cant": "Needs a failure in one chosen stage of one call of a history, and a comparison of all attributes and predictions afterwards.", "anchors": ["src/mfpml/models/co_kriging.py: CoKriging.train, predict, predict_lf, _optHyp, _update_parameters; _GP.train, _GP.predict"]}
{"id": "C110", "title": "Failed trainings of Co-Kriging and the noise", "statement": "Every training call, also a failed one, divides a given noise_prior by the standard deviation of its high-fidelity responses; predictions with standard deviation multiply it only when they return. So k failed attempts divide it k times. A training does what it does on a new object whose noise_prior is the current value, so with noise 0 the past is irrelevant, and with another noise a failed attempt changes the result of a later successful one. With a learned noise, what the low-fidelity stage of a failed call learned is kept by all later calls.", "quantifier": "All lists of training and prediction calls, successes and failures interleaved, exact arithmetic.", "why_tests_cant": "It quantifies over unbounded histories and over where each call fails.", "anchors": ["src/mfpml/models/co_kriging.py: CoKriging.train, predict, _GP.train"]}
{"id": "C111", "title": "What a failed training of scaled Kriging leaves behind", "statement": "If ScaledKriging.train raises, the object is left in one of three states. If the low-fidelity stage failed, the low-fidelity model has the new data and its old fit, and everything else is old. If rho_method is unknown (UnboundLocalError), the low-fidelity model and the stored high-fidelity data are new, rho and the discrepancy model are old. If a training of the discrepancy model failed, in the search for rho or after it, that model has the new data with the fit of its last successful training, and rho is new only if the search for rho was over. After a success and then a failure, predictions return numbers exactly when the stage that failed had kept a fit of the same number of samples, and raise ValueError otherwise; their values are given for equal sites. So a failed training does not leave the old model in force, even if the data did not change.", "quantifier": "All earlier states, all sizes, all data whose responses and discrepancies are not all equal, all behaviours of the three searches, exact arithmetic.", "why_tests_cant": "Needs a failure in one chosen stage, or at one chosen step of the search for rho, and a comparison of all attributes and predictions afterwards.", "anchors": ["src/mfpml/models/scale_kriging.py: ScaledKriging.__init__, _train_hf, _rho_optimize, _eval_bumpiness, predict", "src/mfpml/models/mf_gaussian_process.py: _mfGaussianProcess.train, _train_lf, predict_lf"]}
{"id": "C112", "title": "Later trainings of scaled Kriging after failures", "statement": "With a given noise_prior, a training after any list of successful and failed trainings does what it does on a new object: it raises the same exception or gives the same predictions. When rho is not optimised this holds as long as no earlier call optimised it. With noise_prior None, the noise the low-fidelity model learned in its first successful stage stays for ever, also if the call then failed; so does the noise the discrepancy model learned for the first rho a bumpiness search tried. The kernel attribute is never fitted, and the noise attribute is missing or equals that of the discrepancy model.", "quantifier": "All lists of training calls, successes and failures interleaved, all sizes, all behaviours of the searches, exact arithmetic.", "why_tests_cant": "It quantifies over unbounded histories and over where each call fails.", "anchors": ["src/mfpml/models/scale_kriging.py: ScaledKriging.__init__, _train_hf, _rho_optimize, _eval_bumpiness", "src/mfpml/models/mf_gaussian_process.py: _mfGaussianProcess.train", "src/mfpml/models/gaussian_process.py: GaussianProcessRegression.train"]}
{"id": "C113", "title": "Response units in hierarchical Kriging", "statement": "Changing the unit and origin of all responses (y to a*y + b, a > 0, noise times a) changes predictions to a*mean + b and standard deviations to a*std, and leaves the objective of the search unchanged. Changing only the low-fidelity responses, by scaling them about the mean of the high-fidelity responses, leaves all predictions unchanged. Adding a constant to only the low-fidelity responses does not: it can even make training fail.", "quantifier": "All a > 0, b, data, sizes, query batches, behaviours of the searches, exact arithmetic.", "why_tests_cant": "It quantifies over all reals and over what the searches return.", "anchors": ["src/mfpml/models/hierarchical_kriging.py: HierarchicalKriging._train_hf, _logLikelihood, predict", "src/mfpml/models/mf_gaussian_process.py: _mfGaussianProcess.train, normalize_hf_output"]}
{"id": "C114", "title": "Response units in scaled Kriging", "statement": "Changing the unit and origin of all responses (y to a*y + b, a > 0, noise times a), with the same rho, changes what predict(return_std=True) returns to a*mean + b and a*std. The result of predict without standard deviation becomes a*mean + b + b*rho*(1 - rho). The squared-error objective of the search for rho is multiplied by a*a under a change of unit, so the best rho stays; a change of origin can change the best rho.", "quantifier": "All a > 0, b, data, sizes, query batches, behaviours of the three searches, exact arithmetic.", "why_tests_cant": "It quantifies over all reals and over what the searches return.", "anchors": ["src/mfpml/models/scale_kriging.py: ScaledKriging._train_hf, _rho_optimize, _eval_error, _eval_bumpiness, predict", "src/mfpml/models/mf_gaussian_process.py: _mfGaussianProcess.train"]}
{"id": "C115", "title": "Response units in Co-Kriging", "statement": "Changing the unit and origin of all responses (y to a*y + b, a > 0, noise_prior times a), with the same hyper-parameters, changes the predictions of both fidelities to a*mean + b and the first standard deviations to a*std. The objective of the search is unchanged when the noise is learned or 0. For another given noise it is not: in the new unit it is the objective of the old unit with the noise divided by a, so the chosen hyper-parameters can depend on the unit.", "quantifier": "All a > 0, b, data, sizes, query batches, behaviours of the searches, exact arithmetic.", "why_tests_cant": "It quantifies over all reals and over what the searches return.", "anchors": ["src/mfpml/models/co_kriging.py: CoKriging.train, _logLikelihood, predict, predict_lf"]}
{"id": "C116", "title": "Input units in the multi-fidelity models", "statement": "Changing the unit and origin of each input variable (x_k to c_k*x_k + t_k, c_k not 0), in the design space, the samples and the query points alike, changes nothing in hierarchical, scaled or Co-Kriging: training gives the same object or the same exception, and predictions of means and standard deviations are equal.", "quantifier": "All c, t, design spaces, data, sizes, query batches, behaviours of the searches, exact arithmetic.", "why_tests_cant": "It quantifies over all reals and over what the searches return.", "anchors": ["src/mfpml/models/hierarchical_kriging.py: HierarchicalKriging._train_hf, predict", "src/mfpml/models/scale_kriging.py: ScaledKriging._train_hf, predict", "src/mfpml/models/co_kriging.py: CoKriging.train, predict, predict_lf, normalize_input", "src/mfpml/models/mf_gaussian_process.py: _mfGaussianProcess.normalize_input"]}
{"id": "C117", "title": "What a Gaussian process training maximises", "statement": "With noise 0 the value the hyper-parameter search minimises is, up to the constant n/2*(1 + ln 2 pi), minus the Gaussian log likelihood of the scaled responses maximised over the process variance and the trend coefficients. With any other noise, given or learned, it is, up to n/2*ln 2 pi, minus the log likelihood with the process variance fixed at 1, maximised over the coefficients only. In all cases the trained coefficients and variance are the unique maximum of the likelihood given the trained correlations. With a learned noise a smaller objective does not imply a more likely model.", "quantifier": "All data, sizes, bases, kernel parameters, noises, variances and coefficients, exact arithmetic.", "why_tests_cant": "It compares with every other variance and coefficient vector.", "anchors": ["src/mfpml/models/gaussian_process.py: GaussianProcessRegression._logLikelihood, _update_kernel_matrix, train"]}
{"id": "C118", "title": "What the multi-fidelity trainings maximise", "statement": "The searches of hierarchical Kriging (trend: the scaled low-fidelity prediction times a coefficient) and of Co-Kriging (trend: rho times the low-fidelity prediction plus a constant) minimise minus the Gaussian log likelihood up to a constant: maximised over variance and coefficient with noise 0, over the coefficient at variance 1 with any other noise. The trained coefficient and variance of hierarchical Kriging, the discrepancy variance of Co-Kriging and its common mean are the unique maxima of the corresponding likelihoods.", "quantifier": "All data, sizes, hyper-parameters, noises, variances and coefficients, exact arithmetic.", "why_tests_cant": "It compares with every other variance and coefficient.", "anchors": ["src/mfpml/models/hierarchical_kriging.py: HierarchicalKriging._logLikelihood, _update_parameters", "src/mfpml/models/co_kriging.py: CoKriging._logLikelihood, _update_parameters, _GP._logLikelihood"]}
{"id": "C119", "title": "The order of the training samples", "statement": "Giving the same samples and responses to a Gaussian process in another order changes neither the objective of the search nor, with the same search result, the exceptions, noise, kernel, coefficients, variance and logp. Predictions (mean and std) in rows n and later of a batch are equal. In the first n rows the mean moves by 1e-10 times the difference of two sample weights times the std of the responses; with the Ordinary basis there is always an order for which some row does move.", "quantifier": "All permutations, data, sizes, bases, query batches, behaviours of the search, exact arithmetic.", "why_tests_cant": "There are n! orders and all data.", "anchors": ["src/mfpml/models/gaussian_process.py: GaussianProcessRegression.train, predict", "src/mfpml/models/kernels.py: RBF.get_kernel_matrix"]}
{"id": "C120", "title": "Predictions are best linear unbiased predictions", "statement": "The mean predicted by a trained Gaussian process, with any basis containing the constant (all bases of the package do), is a weighted sum of the responses as given, with the weights that minimise the error variance among all weights that reproduce the trend, and these weights are unique; the predicted standard deviation is computed from exactly that error variance. The same holds for hierarchical Kriging with the low-fidelity prediction as trend. The mean of Co-Kriging is the best linear unbiased prediction with a constant trend from all responses, but its standard deviation is the error of weights chosen without unbiasedness, as if the constant were known; the amount left out is given.", "quantifier": "All data, sizes, bases, query batches, behaviours of the search, exact arithmetic.", "why_tests_cant": "It compares with every other linear predictor.", "anchors": ["src/mfpml/models/gaussian_process.py: GaussianProcessRegression.predict", "src/mfpml/models/hierarchical_kriging.py: HierarchicalKriging.predict", "src/mfpml/models/co_kriging.py: CoKriging.predict"]}
{"id": "C121", "title": "What further samples change in a Gaussian process", "statement": "With noise 0 and the same correlation parameters, training on further samples nowhere increases the predicted standard deviation relative to the estimated standard deviation of the process. With the same parameters and the same ratio of noise to the standard deviation of the responses, further samples whose responses equal the predictions change no predicted mean, and the estimated variance of the process is multiplied by n/(n+n2).", "quantifier": "All data, further samples, bases, query batches, behaviours of the search, exact arithmetic.", "why_tests_cant": "It ranges over all data and all further samples.", "anchors": ["src/mfpml/models/gaussian_process.py: GaussianProcessRegression.train, predict"]}
{"id": "C122", "title": "PSO and DE use the objective only through comparisons", "statement": "If every response of the objective (and the stopping value) is transformed by a function that keeps all comparisons between the possible responses, PSO and DE with the same random draws call the objective with the same populations in the same order, raise the same exceptions, stop at the same generation and report the same locations; the reported values are the transformed ones. Multiplying by a power of two is such a function as long as nothing overflows. Adding a constant is not: rounding can make different responses equal and another location is returned.", "quantifier": "All objectives, transformations, configurations, design spaces, random streams and stopping values, binary64.", "why_tests_cant": "It ranges over all objectives and all transformations of them.", "anchors": ["src/mfpml/optimization/evolutionary_algorithms.py: PSO.run_optimizer, DE.run_optimizer"]}
{"id": "C123", "title": "Acquisition functions in other units", "statement": "Let every response y become a y + b with a > 0, and a noise become a times itself. The Gaussian processes and hierarchical Kriging trained on the new responses (with the same search results) predict a mean + b and a times the standard deviation, and with them the acquisition functions behave as follows. The lower confidence bounds, of one and of two fidelities, are rescaled by a (and shifted by kappa b), so they rank points the same. Adding a constant changes neither the expected improvement nor the constrained nor the variable-fidelity one; multiplying by a multiplies the expected improvements by a up to the offsets of 1e-9 and 1e-8. The probability of improvement is that of standard deviations that are 1e-9 / a larger instead of 1e-9: it is not the same number. Augmented expected improvement is multiplied by a and extended probability of improvement is unchanged wherever no standard deviation is below 2^-52 in either unit; this threshold is absolute, so in a small enough unit the augmented expected improvement is zero where it is positive in another one.", "quantifier": "All surrogates, dimensions, batches, samples, kappas, cost ratios, fidelities, factors a > 0 and constants b, exact arithmetic.", "why_tests_cant": "It ranges over all surrogates and all changes of units, and compares pairs of evaluations.", "anchors": ["src/mfpml/optimization/sf_uncons_acqusitions.py: LCB.eval, EI.eval, PI.eval", "src/mfpml/optimization/sf_cons_acqusitions.py: CEI.eval", "src/mfpml/optimization/mf_acqusitions.py: VFLCB.eval, VFEI.eval, AugmentedEI.eval, ExtendedPI.eval"]}
{"id": "C124", "title": "What an interrupted PSO or DE run leaves behind", "statement": "With save_step_results, at whatever point a run of particle swarm optimisation or differential evolution is interrupted, step_results.pickle is either what it was before the run, or unfinished, or complete. If it is complete, it holds the histories, samples and responses that a run of g generations with the same draws would have returned, followed by zeros up to the requested number of generations, where g is the number of generations finished; at most one further population has been evaluated. Its 'best_x' and 'best_y' are whole histories, not the best point. Writing is not atomic: an interruption during a write loses the earlier contents. Printing and saving change no call of the objective. Printing gives one line per generation, with the best known before that generation, so never the final best. The plot of the history shows the best after each generation and zero for generations that were not run, so after an early stop it can show values below all that were observed.", "quantifier": "All configurations, boxes, objectives (also ones that fail), draws and stopping errors, and all interruption points between effects (calls, printed lines, opening and completing the file), in binary64.", "why_tests_cant": "It ranges over all crash points of all runs.", "anchors": ["src/mfpml/optimization/evolutionary_algorithms.py: EABase._save_results, EABase.print_info, EABase.plot_optimization_history, PSO.run_optimizer, DE.run_optimizer"]}
{"id": "C125", "title": "Adding samples to the low-fidelity model of Co-Kriging", "statement": "Calls of update_model on the low-fidelity Gaussian process lose no sample and keep their order, whatever calls failed. With a given noise, the last call of any sequence of trainings and updates does what one training on all samples would have done: it succeeds or raises alike, and on success the object is the same. A noise to be learned is learned by the first successful training only and kept afterwards, so growing and training once are not the same then. A failed update keeps the new samples without a model for them: predictions raise ValueError until a later call succeeds, and repeating the failed call adds the samples a second time. Before the first training update_model raises AttributeError.", "quantifier": "All dimensions, samples, noises, search results (also searches without result) and sequences of calls, exact arithmetic.", "why_tests_cant": "It ranges over all histories of calls, with failures in between, and compares the resulting objects for all questions.", "anchors": ["src/mfpml/models/co_kriging.py: _GP.update_model, _GP.train, _GP.predict, _GP._num_samples"]}
{"id": "C126", "title": "Predictions far from all samples", "statement": "As a query point moves away from all samples, predictions approach definite values. A Gaussian process with the constant basis approaches the generalised least squares estimate of the constant, and its standard deviation that of the process enlarged by the error of this estimate; for the first rows of a batch the 1e-10 added to their correlation with the sample of the same number remains in both limits. With another basis the mean approaches the fitted trend, and the standard deviation does not stay below that of the process. Hierarchical Kriging approaches the prediction whose trend is the low-fidelity limit. Co-Kriging approaches the constant estimated from all responses, but its standard deviation leaves out the error of that estimate.", "quantifier": "All dimensions, boxes, samples, noises and search results with which training succeeds, all batches and row numbers, exact arithmetic; for every tolerance there is a distance.", "why_tests_cant": "It is a limit statement over an unbounded set of query points.", "anchors": ["src/mfpml/models/gaussian_process.py: GaussianProcessRegression.predict", "src/mfpml/models/hierarchical_kriging.py: HierarchicalKriging.predict", "src/mfpml/models/co_kriging.py: CoKriging.predict", "src/mfpml/models/kernels.py: RBF.get_kernel_matrix"]}
{"id": "C127", "title": "Training a Gaussian process on constant or non-finite responses", "statement": "Responses whose computed standard deviation is zero (one sample, or responses all equal to their computed mean) or NaN (one of them is NaN or infinite) never give a usable model. With the default optimiser training on responses scaled to NaN raises LinAlgError or UnboundLocalError. With PSO or DE it raises, or all later means and standard deviations are NaN; with a Cholesky factorisation that rejects NaN it always raises. After such a call, successful or not and whatever model was there before, every prediction that returns is NaN or the mean response, the same at all points. With a given noise only the data are changed. With a noise to be learned and PSO or DE the call sets the noise to zero or NaN even if it raises: zero makes all later trainings noise-free, as if noise_prior=0.0 had been given; NaN makes all later trainings raise, on any data.", "quantifier": "All samples, bases with a constant, noises, search results and histories of calls; binary64 with any order of summation, and free exp, log and 10**x.", "why_tests_cant": "Whether and where an exception occurs depends on rounding, NaN propagation and LAPACK; the damage shows only in later calls on other data.", "anchors": ["src/mfpml/models/gaussian_process.py: GaussianProcessRegression.train, _hyper_paras_optimization, _logLikelihood, _update_kernel_matrix, predict"]}
{"id": "C128", "title": "Training Co-Kriging on constant or non-finite responses", "statement": "If the high-fidelity responses have a standard deviation of zero or NaN (a single high-fidelity sample, equal responses, a NaN or an infinity among them), or one low-fidelity response is not finite, Co-Kriging is never trained with a Cholesky factorisation that rejects NaN: every such training raises LinAlgError or UnboundLocalError (no training ever raises anything else). With another factorisation, if training on such high-fidelity responses returns, all later means are NaN. After such high-fidelity responses, whether training returned or not, every prediction that returns is NaN or the mean high-fidelity response, and its standard deviation NaN or zero. If the object had a noise, given (0.0 included) or learned, that one call makes the noise of both models NaN or infinite; from then on no training succeeds any more, on any data and with any optimiser, whatever is called in between, and the standard deviations are NaN.", "quantifier": "All samples, noises, search results and histories of calls of train and predict; binary64 with any order of summation, and free exp, log and 10**x.", "why_tests_cant": "The damage needs one degenerate call and shows only in later calls on other data; it depends on NaN propagation through the factorisations.", "anchors": ["src/mfpml/models/co_kriging.py: CoKriging.train, _optHyp, _logLikelihood, _update_parameters, predict, normalize_hf_output", "src/mfpml/models/co_kriging.py: _GP.train, _logLikelihood, _update_kernel_matrix, predict"]}
{"id": "C129", "title": "Responses too far apart to be scaled", "statement": "If two finite responses differ by 2^513 (about 3e154) or more, for instance because a penalty of 1e200 marks failed simulations, their computed standard deviation is infinite or NaN. After training the Gaussian process on such responses no predicted mean is finite and no standard deviation is finite and non-zero. With a given noise the training does not notice: it returns or raises as it would with noise zero and ordinary responses at the same samples, and after it has returned all predictions return as well. With a noise to be learned training raises, and if its search came to an end the object keeps a noise that is not finite, with which no later training on any data succeeds. Co-Kriging on such high-fidelity responses predicts no finite mean either; its given noise becomes zero in both models and stays zero in later trainings on ordinary responses, and one prediction of standard deviations makes it NaN, after which no training succeeds any more.", "quantifier": "All finite responses (at most 2^20), samples, noises, search results and histories; binary64 with any order of summation, and free exp, log and 10**x.", "why_tests_cant": "Nothing is raised: the overflow happens in squares inside a standard deviation, and the effects show only in predictions or in later calls on other data.", "anchors": ["src/mfpml/models/gaussian_process.py: GaussianProcessRegression.train, _logLikelihood, _update_kernel_matrix, predict, normalize_output", "src/mfpml/models/co_kriging.py: CoKriging.train, predict, normalize_hf_output"]}
{"id": "C130", "title": "Hierarchical Kriging on constant, non-finite or overflowing responses", "statement": "Training Hierarchical Kriging raises, whatever the search returns, if the standard deviation of the high-fidelity responses is zero (a single sample, or equal responses), NaN (a NaN or infinity among them) or infinite (responses too far apart). Unless it is zero and the noise is to be learned, it raises at the first evaluation of the likelihood with the noise untouched, so unlike with the Gaussian process and Co-Kriging nothing is spoiled for later trainings; in the remaining case the noise becomes zero for good if the search came to an end. The low-fidelity model and the data have been replaced by then: if a prediction still returns, it is NaN at every point for zero or NaN and never finite for infinity. If the standard deviation of the low-fidelity responses is zero or NaN training raises before anything of the high-fidelity part has changed; if it is not finite no prediction made later is finite, also by a model that was trained before; and a low-fidelity noise that was learned from such responses is zero or NaN, and with NaN no later training succeeds.", "quantifier": "All responses of both levels, samples, noises, search results and histories of calls; binary64 with any order of summation, and free exp, log and 10**x.", "why_tests_cant": "Tests use well-behaved responses of both levels. Which exception, which attributes survive it and what later calls do depends on NaN and infinity arithmetic in factorisations of every size.", "anchors": ["src/mfpml/models/hierarchical_kriging.py: HierarchicalKriging._train_hf, _logLikelihood, _update_parameters, predict", "src/mfpml/models/mf_gaussian_process.py: _mfGaussianProcess.train, normalize_hf_output", "src/mfpml/models/gaussian_process.py: GaussianProcessRegression.train, predict"]}
{"id": "C131", "title": "Scaled Kriging on constant, non-finite or overflowing responses", "statement": "Training Scaled Kriging raises, whatever the searches return and however rho is chosen, with a single high-fidelity sample, with a NaN or an infinity among the high-fidelity responses, with low-fidelity responses whose standard deviation is not finite, and if rho times the low-fidelity prediction equals the response at every high-fidelity sample: two levels that agree are an error. Low-fidelity responses with a standard deviation of zero or NaN raise before the discrepancy model, rho or the noise change. If a prediction returns after a training on high-fidelity responses with a NaN or an infinity, or on low-fidelity responses whose standard deviation is not finite, it has no finite mean, whether that training raised or not. A noise learned from discrepancies with a NaN or an infinity is NaN, is never learned again, and with it no later training succeeds.", "quantifier": "All responses of both levels, samples, noises, ways to choose rho, search results and histories of calls; binary64 with any order of summation, and free exp, log and 10**x.", "why_tests_cant": "A test of two levels that agree needs predictions that equal the responses to the last bit; the other cases are not reached with well-behaved data, and what remains usable after the exception shows only in later calls.", "anchors": ["src/mfpml/models/scale_kriging.py: ScaledKriging._train_hf, _getDisc, _rho_optimize, _eval_bumpiness, predict", "src/mfpml/models/mf_gaussian_process.py: _mfGaussianProcess.train", "src/mfpml/models/gaussian_process.py: GaussianProcessRegression.train, predict"]}
{"id": "C132", "title": "When acquisition values are NaN or infinite in floating point", "statement": "For finite samples, expected improvement, probability of improvement and the lower confidence bound are finite wherever the predicted mean and standard deviation are finite; what they are for NaN and infinite predictions is fixed case by case (a mean of +inf gives a NaN expected improvement, one of -inf an infinite value). Constrained expected improvement is finite for finite answers, and one constraint model that answers NaN makes it NaN. The variable-fidelity acquisitions return zero below machine epsilon even for a NaN mean; augmented expected improvement and extended probability of improvement for the low fidelity are NaN where the two means are equal and the high-fidelity deviation is zero. A NaN among the samples makes every value NaN, and so does a model trained on constant or non-finite responses.", "quantifier": "All samples and predictions whose finite numbers are at most 2^300 in size, all batches of points and surrogates, any norm.cdf and norm.pdf that are NaN only at NaN, in [0, 1] otherwise, with the limits 0 and 1.", "why_tests_cant": "A test has the predictions of one model; which combinations of NaN, infinities and zero deviations turn into NaN, and that no finite combination does, needs every pair of floating-point numbers.", "anchors": ["src/mfpml/optimization/sf_uncons_acqusitions.py: LCB.eval, EI.eval, PI.eval", "src/mfpml/optimization/sf_cons_acqusitions.py: CEI.eval, CEI.ei, CEI.pof", "src/mfpml/optimization/mf_acqusitions.py: AugmentedEI.eval, AugmentedEI.corr, VFEI.eval, VFLCB.eval, ExtendedPI.eval, ExtendedPI.corr"]}
{"id": "C133", "title": "Acquisition values in floating point are accurate", "statement": "If norm.cdf and norm.pdf are within e, expected improvement computed in binary64 for finite predictions is within 5e-10 + (2^-48 + e)(|best - mean| + deviation) of the exact expected improvement of the predicted distribution, so a candidate preferred by the computed value is at most the sum of two such errors worse. Corresponding bounds hold for the probability of improvement, the lower confidence bound, constrained expected improvement (the product with the probabilities that the constraints are at most zero), and for the high-fidelity values of the variable-fidelity and augmented expected improvements where the deviation is at least machine epsilon. The order is kept without error for the lower confidence bound in mean and deviation and for the probability of improvement in the mean.", "quantifier": "All finite samples and predictions up to 2^300 in size, all numbers of constraints, any order of the multiplications in np.prod, any error e.", "why_tests_cant": "A test compares a few values with a tolerance; cancellation, the added 1e-9 and underflow matter at arguments a test does not pick.", "anchors": ["src/mfpml/optimization/sf_uncons_acqusitions.py: LCB.eval, EI.eval, PI.eval", "src/mfpml/optimization/sf_cons_acqusitions.py: CEI.eval, CEI.ei, CEI.pof", "src/mfpml/optimization/mf_acqusitions.py: AugmentedEI.eval, AugmentedEI.corr, VFEI.eval, VFLCB.eval, ExtendedPI.eval, ExtendedPI.corr"]}
{"id": "C134", "title": "Latin hypercubes after rounding and nesting", "statement": "In binary64 every sample of LatinHyperCube, RandomSampler and SobolSequence differs from the scaled draw by at most s = 6*2^-53*max(|lb|, |ub|) + 2^-1074, and scaling keeps the order of the draws. If the unit-cube engine puts one point in each of the n strata of every axis, each stratum of [lb, ub] widened by s holds a sample and no stratum narrowed by s holds two; samples from strata that are not neighbours are distinct and in order if the strata are wider than 2s. Exact stratification is lost: on [1000, 1001] two points can end up in the lower half. Every level of a non-nested MFLatinHyperCube is stratified in this sense; of a nested one only the lowest fidelity is, the others need not be even roughly.", "quantifier": "All unit-cube engines, seeds, sample counts and design spaces whose bounds are at most 2^1000 in size; all index choices of nested sampling.", "why_tests_cant": "A test checks the strata of one seed in one box, where no sample falls near an edge; the effect of rounding depends on the box and the draw, that of nesting on the random rows.", "anchors": ["src/mfpml/design_of_experiment/sf_samplers.py: SingleFidelitySampler.scale_samples, LatinHyperCube.get_samples, RandomSampler.get_samples, SobolSequence.get_samples", "src/mfpml/design_of_experiment/mf_samplers.py: MultiFidelitySampler.get_samples, MFLatinHyperCube._get_non_nested_samples, MFLatinHyperCube._get_nested_samples"]}
{"id": "C135", "title": "Means predicted in binary64 are finite and accurate", "statement": "A single-fidelity Gaussian process with finite weights predicts a finite mean at every point of its design space. It differs from the exact prediction with the same weights, sample mean and standard deviation by at most 2^-53 times (p + 2n + E + 8) times the standard deviation times the sum of the sizes of the weights, plus 2^-52 times the size of the mean and 2^-600, for n samples, p basis functions and E error units of a correlation (they depend on the dimension and the largest kernel weight). What the exact prediction is includes the 1e-10 that the kernel adds for the j-th point of the batch and the j-th sample.", "quantifier": "All training sets of at least one sample in a finite design space whose responses are spread and at most 2^400 in size, all kernel parameters up to a bound, all finite weights with total size up to 2^500, all batches and positions in them.", "why_tests_cant": "A test compares a handful of predictions of one model with stored numbers to a tolerance; it says nothing about other data, scales or weights, where sums may overflow or cancel.", "anchors": ["src/mfpml/models/gaussian_process.py: GaussianProcessRegression.predict, normalize_input, normalize_output", "src/mfpml/models/kernels.py: RBF.get_kernel_matrix, __call__", "src/mfpml/models/basis_functions.py: Ordinary, Linear, Quadratic"]}
{"id": "C136", "title": "A trained model gives its training responses back, up to rounding and noise", "statement": "After a training that returned, a point equal to sample i is predicted as response i, up to: the noise variance of the scaled responses times the weight of the sample, 1e-10 times the difference between the weights of samples j and i if the point is at position j of its batch, and rounding. The rounding part is bounded explicitly from the number of samples, the sum of the sizes of the weights and the backward error of the linear solver. With the noise set to zero, predicting all samples in their order returns all responses up to rounding; in another order it does not: an error of 1e-10 times the weights remains.", "quantifier": "All training sets, start states, search results, noise values, solvers with a bounded backward error, and batches; numbers within the ranges of C135.", "why_tests_cant": "A test trains on a few samples and compares with a tolerance of some digits; how far interpolation holds depends on the conditioning of the data, and the effect of batch order is smaller than usual tolerances.", "anchors": ["src/mfpml/models/gaussian_process.py: GaussianProcessRegression.train, predict, _update_kernel_matrix, normalize_output", "src/mfpml/models/kernels.py: RBF.get_kernel_matrix"]}
{"id": "C137", "title": "Without noise, the predicted standard deviation at a sample is exactly zero if the batch keeps the order of the samples", "statement": "Train a single-fidelity Gaussian process with a constant basis function and the noise set to zero. If a point of a batch is equal to the sample at the same position, its predicted standard deviation in binary64 is zero (or not finite, which happens only if the linear solver overflowed or the process variance exceeds 2^900), and never a positive number: the 1e-10 that the kernel adds for equal positions makes the computed variance negative, by more than all rounding errors, and the negative variance is replaced by zero. If the batch lists the samples in another order, positive standard deviations are predicted at them.", "quantifier": "All training sets within an explicit size (number of samples, dimension, largest kernel weight, backward error of the solver), all spread responses up to 2^400 in size, all start states, search results and batches containing samples at their positions.", "why_tests_cant": "A test checks a standard deviation against a tolerance; whether cancellation leaves exactly zero, a small positive number or NaN depends on every rounding error in the solves, for all data.", "anchors": ["src/mfpml/models/gaussian_process.py: GaussianProcessRegression.train, predict, _update_kernel_matrix", "src/mfpml/models/kernels.py: RBF.get_kernel_matrix", "src/mfpml/models/basis_functions.py: Ordinary"]}
{"id": "C138", "title": "Predicted standard deviations are never negative, and include the noise except in Gaussian processes", "statement": "Every standard deviation returned by predict(..., return_std=True) is, in binary64, NaN, plus infinity, or a number that is not negative, for all four models. In hierarchical Kriging and Co-Kriging it is also at least the absolute value of the noise the object has after the call (if that is finite and at least 2^-500), up to a relative error of 2^-50. A Gaussian process can predict less than its noise: with two samples and a positive noise it predicts the standard deviation zero at both.", "quantifier": "All object states, batches and results of NumPy's sum, dot, exp and linalg.solve.", "why_tests_cant": "A test checks a few predictions; here cancellation, overflow and NaN in any of the solves and sums have to be considered.", "anchors": ["src/mfpml/models/gaussian_process.py: GaussianProcessRegression.predict", "src/mfpml/models/hierarchical_kriging.py: HierarchicalKriging.predict", "src/mfpml/models/co_kriging.py: CoKriging.predict", "src/mfpml/models/scale_kriging.py: ScaledKriging.predict"]}
