# Formal model of mfpml: design

The code under study is `/repo/src/mfpml` (JiaxiangYi96/mfpml at the pinned commit), Python on
NumPy/SciPy. It was read as text only. This directory holds a Coq 8.16.1 model of it and proofs of
the properties in `properties.jsonl`.

## 1. Modelling styles

mfpml is three kinds of code, so there are three kinds of model. They live in separate files.

**(a) binary64 programs** – samplers, PSO/DE, the Bayesian-optimisation loops, multi-start search,
fidelity selection, and (C99 to C101) the kernel matrix, its Cholesky factorisation and the input
normalisation. Numbers are Flocq's `binary_float 53 1024` (IEEE binary64 with infinities, all NaNs
identified, round to nearest even). Arrays are lists. Each Python function becomes one total Gallina
function that follows its branches. Exceptions are values: `result A := Ok a | Raise e`. Everything
random or external is an oracle argument: the values of `np.random.*`, the SciPy engines,
`scipy.optimize.minimize`, the objective function. Theorems quantify over all oracles meeting the
stated contract (for example a uniform draw `u` satisfies `0 <= u < 1`). The objective receives the
call number, so a stateful objective is covered. Library routines whose order of operations is not
fixed (`np.sum`, `np.dot`, LAPACK's Cholesky) are relations: any order of summation, with or without
fused multiply-add, is allowed, and the theorems hold for all of them.

**(b) exact linear algebra** – kernels, bases, Kriging and multi-fidelity models. mathcomp matrices over
the standard library's `R`. Cholesky is the outer-product algorithm, written as a recursive function into
`result` (`Raise LinAlgError` when a pivot is not positive). `np.linalg.solve` is inversion guarded by
invertibility. Rounding is not modelled here; these theorems say what the formulas compute.

**(c) real analysis** – acquisition formulas and benchmark functions, on `R` with Coquelicot and the
Interval tactic. Rounding is not modelled. NaN and infinity from a division by zero, a logarithm or a
root outside its domain are `None`.

`Properties_*.v` files contain the statements closed by `exact`, the concrete satisfiability examples,
and `Print Assumptions`. Model files contain no proofs. `*Spec.v` files contain the words used in the
statements and do not refer to the model.

## 2. Conventions

* Every model definition cites the `/repo` file and lines it models and says where it simplifies.
* A property that the code violates is stated as the true characterisation plus a theorem whose
  name contains `_refuted`, exhibiting the violation of the naive expectation.
* A theorem covering only part of its property would end in `_partial`. There is none at present.
* `MANIFEST.json` maps properties to theorems. `seeded/LOG.jsonl` records mutation attempts: the edited
  definition, the edit, the claim it breaks, the theorems that failed, the theorems tightened.

## 3. Which file models what

| code in /repo/src/mfpml | model | words of the statements | theorems |
|---|---|---|---|
| design_of_experiment/sf_samplers.py, mf_samplers.py | Samplers.v | SamplersSpec.v | Properties_Samplers.v |
| optimization/evolutionary_algorithms.py | EA.v | EASpec.v | Properties_EA.v |
| optimization/sf_uncons_bo.py, sf_cons_bo.py, mf_uncons_bo.py, `query` of the acquisitions | BO.v | BOSpec.v | Properties_BO.v |
| models/kernels.py, basis_functions.py | Kernel.v | LinSpec.v | Properties_Kernel.v |
| numpy.linalg.cholesky, solve | LinAlg.v (exact), CholFl.v (binary64) | LinSpec.v, KernelFlSpec.v | Properties_Kernel.v, Properties_KernelFl.v |
| models/gaussian_process.py | Krig.v, GP.v | LinSpec.v, GPSpec.v | Properties_GP.v |
| models/mf_gaussian_process.py, hierarchical_kriging.py, scale_kriging.py | MF.v | MFSpec.v | Properties_MF.v |
| models/co_kriging.py | CoKrig.v | MFSpec.v | Properties_MF.v |
| optimization/*_acqusitions.py, `eval` | Acq.v, Normal.v | AcqSpec.v, AcqSpecM.v | Properties_Acq.v |
| problems/*.py, functions and attributes | Problems.v | ProblemsSpec.v | Properties_Problems.v, Properties_Ranges.v |
| problems/*.py, arrays and constructors | ProblemArrays.v | ProblemArraysSpec.v | Properties_Arrays.v |
| kernel matrix and normalisation in binary64 | KernelFl.v | KernelFlSpec.v | Properties_KernelFl.v |
| visualization/samplers_visualization.py, `kronDelta` | Interfaces.v | InterfacesSpec.v | Properties_Interfaces.v |
| `normalize_output`, `y_mean`, `y_std` in binary64 | OutputFl.v | OutputFlSpec.v | Properties_OutputFl.v |
| gaussian_process.py attribute by attribute, with failures | GPState.v | GPStateSpec.v | Properties_GPState.v |
| hierarchical_kriging.py attribute by attribute, with failures | HKState.v | HKStateSpec.v | Properties_HKState.v |
| co_kriging.py attribute by attribute, with failures | CKState.v | CKStateSpec.v | Properties_CKState.v |
| scale_kriging.py attribute by attribute, with failures | SKState.v | SKStateSpec.v | Properties_SKState.v |
| units of responses and inputs in the surrogates | GP.v, MF.v, CoKrig.v | (statements only) | Properties_Units.v |
| likelihoods, order of samples | GP.v, MF.v, CoKrig.v | LikSpec.v | Properties_Lik.v |
| best linear unbiased prediction, further samples | GP.v, MF.v, CoKrig.v | BlupSpec.v | Properties_Blup.v |
| objectives that rank points alike, in PSO and DE | EA.v | RankSpec.v | Properties_Rank.v |
| acquisition functions in other units | Acq.v, GP.v, MF.v | AcqUnitsSpec.v | Properties_AcqUnits.v |
| files, printed lines and plots of PSO and DE | EAFiles.v | EAFilesSpec.v | Properties_EAFiles.v |
| adding samples to the low-fidelity model of Co-Kriging | CKGrow.v | CKGrowSpec.v | Properties_CKGrow.v |
| predictions far from all samples | GP.v, MF.v, CoKrig.v | FarSpec.v | Properties_Far.v |
| gaussian_process.py in binary64, with failures | TrainFl.v | TrainFlSpec.v | Properties_TrainFl.v |
| co_kriging.py in binary64, with failures | CKTrainFl.v | TrainFlSpec.v | Properties_CKTrainFl.v |
| standard deviations that overflow | TrainFl.v, CKTrainFl.v | TrainFlSpec.v, WideFlSpec.v | Properties_WideFl.v |
| hierarchical_kriging.py in binary64, with failures | HKTrainFl.v | TrainFlSpec.v | Properties_HKTrainFl.v |
| scale_kriging.py in binary64, with failures | SKTrainFl.v | TrainFlSpec.v | Properties_SKTrainFl.v |
| sf_uncons_acqusitions.py, sf_cons_acqusitions.py, mf_acqusitions.py in binary64 | AcqFl.v | AcqFlSpec.v, AcqSpec.v | Properties_AcqFl.v |
| sf_samplers.py, mf_samplers.py: rounding and strata | Samplers.v | SampFlSpec.v | Properties_SampFl.v |
| gaussian_process.py: predicted means in binary64 | TrainFl.v, KernelFl.v, OutputFl.v | PredFlSpec.v, KernelFlSpec.v, OutputFlSpec.v | Properties_PredFl.v |
| gaussian_process.py: predicted standard deviations in binary64 at the samples | TrainFl.v, KernelFl.v, OutputFl.v | StdFlSpec.v, PredFlSpec.v, KernelFlSpec.v, OutputFlSpec.v | Properties_StdFl.v |
| gaussian_process.py, hierarchical_kriging.py, co_kriging.py, scale_kriging.py: signs of the standard deviations in binary64, and the noise in them | TrainFl.v, HKTrainFl.v, CKTrainFl.v, SKTrainFl.v | NoiseFlSpec.v | Properties_NoiseFl.v |

Shared: Fl.v (binary64, exceptions), NpList.v (list versions of NumPy operations), Spec.v. The other files
hold proofs.

## 4. Plan per property

Samplers (style a)

* C01 `scale1 lo hi u = lo + u*(hi-lo)` in binary64. Proof by monotonicity of rounding; refutation by a computed witness; same polymorphic definition over `R` for the exact claim.
* C02 same definition over `R`; strata are intervals; affine bijection argument.
* C03 list computation.
* C04 to C10, C79: `get_samples` as a recursion over the reversed count list returning data and the caller's list afterwards; induction on the number of levels. Engines are oracles. The Sobol engine is a stream per (dimension, seed), so `random(n)` after `fast_forward(k)` is a slice.
* C11 engine state machine with SciPy's 30-bit limit (`random_base2` rejects `n + 2**m > 2**30`).

Evolutionary algorithms (style a)

* C12, C13 invariant of the generation loop: `_loc_cons` repairs every coordinate for any input, because the replacement population is in the box. NaN-freeness by magnitude bounds: sums of finite operands are NaN only as `inf - inf`, which cannot occur.
* C14 to C18, C22, C74 loop invariants over generations (records so far, argmin facts, greedy selection).
* C19 trace of objective calls. C20, C21 per-individual lemmas. C23 real-arithmetic version of the clamp, with a rounding bound. C24 evaluation of the error branches.

Bayesian optimisation loops (style a)

* C25 to C32 state machines; acquisition queries, training and problems are oracles that may raise; invariants by induction on iterations and on the list of `run_optimizer` calls.
* C33, C34, C77 branch-by-branch model of `query`. C75, C76 the same invariants without the no-NaN and no-exception hypotheses. C78 evaluation of the truth value of a list-valued error. C80 totality of the loops when every oracle returns.

Bases, kernels, GP (style b)

* C35 list model, enumeration of pairs by induction. C36, C38, C39 computation with `exp`.
* C37 quadratic form of `exp` of a Gram matrix as the limit of its power series; each Hadamard power is positive by induction.
* C40 to C46 block algebra with the recursive Cholesky: uniqueness, existence for positive definite input, normal equations of generalised least squares.
* C47, C49, C50 state machine of `train`. C48 fold over trial outcomes with NaN. For PSO and DE the bounds of C49 come from C12 and C13.

Multi-fidelity models (style b)

* C51 to C54, C83, C85 same algebra. C55 the covariance is `A diag(.) A'` plus a positive diagonal. C56, C57 state machines over histories of calls. C81, C84, C86 block algebra for Co-Kriging. C82 the correlation of the augmented acquisitions for each model class.

Acquisitions (style c)

* C58 to C60: the normal distribution function is an improper integral; the Gaussian integral is proved through `x -> (int_0^x exp(-t^2))^2`; derivative sign arguments.
* C87 to C91: algebra over the model of each `eval`, with predictors as records of functions that may raise.

Benchmarks (style c)

* C61 to C70, C72, C93: algebraic certificates (sums of squares), convexity, or the Interval tactic for boxes. C71 and C95 small state machines of class and object attributes. C73 list dispatch. C92 quotient of the costs.
* C94, C96, C97 the array interface: which shapes each function accepts and what it returns, by cases on the shape.
* C98 monotonicity and derivative arguments, and bounds from positivity of exponentials.

Kernel and factorisation in binary64 (style a)

* C99 error analysis: `sum_of_err` and `dot_of_err` bound a sum of n terms in any order by `(1+u)^n - 1` relative to the sum of magnitudes; then entry errors, then a diagonal-dominance argument against the exact positive semidefinite kernel (a list version of C37). The refutation computes the distances for two points in binary64.
* C100 backward error analysis of Cholesky as in Rump's and Higham's sufficient conditions, for all orders of summation; induction on the columns. The last pivot of a leading block that is singular for the perturbed matrix would give a vector on which the quadratic form is too small. `cholesky64_total` shows that the relation always has an outcome. The refutation follows the two columns of a 2 x 2 matrix.
* C101 monotonicity of rounding.

Plots and kronDelta

* C102 a plot is the list of matplotlib calls it makes, with an optional exception; cases on the dimension, induction on the levels. C103 real algebra.

Scaled responses in binary64 (style a)

* C104 case analysis on zeros, infinities and NaN; for constants both the response and its mean are multiples of 2^-454, so a non-zero difference has a normal square. C105 the error bounds of C99 applied to the sums; monotonicity of rounding.

Failed trainings (style b, with the object returned beside the exception)

* C106 each assignment is one update of a record; the only raising steps are the search and the factorisations, and with searches that evaluated what they return the latter cannot fail, so a failed call changed the data only. C107 induction on the history, comparing with the model of GP.v. C108 the same in two stages. C109 the same for Co-Kriging, where the stored scaling also enters; C110 induction on the history for the noise, and concrete two-sample data for the refutations. C111 cases on the stage that raises and induction on the trials of a bumpiness search. C112 induction on the history: everything a training reads is overwritten first, except rho and a noise to be learned.

Units (style a)

* C113 to C115 the scaled responses are the same in both units, so the trained objects differ only in the stored mean and standard deviation; for the low-fidelity unit alone the trend column is multiplied by a and its coefficient divided by a. The refutations use two or three concrete samples. C116 the scaled inputs are equal.

Likelihoods and order of samples (style a)

* C117, C118 the sum of logarithms on the diagonal of the Cholesky factor is half the logarithm of the determinant; the residual form is the minimum of the generalised least squares; ln x <= x - 1 gives the minimum over the variance, with equality only at the fitted one. The refutation uses two samples. C119 a permutation matrix conjugates the correlation matrix; determinant, normal matrix and quadratic forms are unchanged; only the positional jitter of the cross kernel is not conjugated.

Best linear unbiased prediction (style a)

* C120 completing the square in the error variance with the generalised least squares projection gives the minimum and its uniqueness; the weights sum to one because the basis contains the constant, so they act on the unscaled responses. C121 weights for fewer samples padded with zeros are unbiased weights for more samples; for samples without surprise the old coefficients padded with zeros solve the new saddle point equations, which have one solution.

Objectives that rank points alike (style b)

* C122 simulation: the two runs keep equal locations and velocities, and values related by the transformation; argmin, selection, personal bests, generation bests and the stopping test are decided by comparisons. The refutation is one computed run.

Acquisition functions in other units (style a)

* C123 an affine increasing map commutes with the minimum and with argmin; the improvement depends on differences and, without an offset, is homogeneous; with offsets both sides are within half an offset of the integral that defines expected improvement, which is homogeneous. The surrogates follow from C44 and C113.

Interrupted runs of PSO and DE (style c)

* C124 the effects of a run are a list and an interruption is a prefix of it. Induction over the generations shows that the state after g generations is that of a run with g generations, up to trailing zeros. The refutations are computed prefixes and runs.

Adding samples to the low-fidelity model (style c)

* C125 induction over the calls: the data are always the concatenation, the noise is kept once it is set, and a successful training overwrites every other attribute.

Predictions far from all samples (style a)

* C126 limits along "at least r away from all samples" are closed under sums, products, matrix products, square roots and maxima. The weighted distance grows with the square of r, so the correlations tend to 0 and the formulas of C120 give the limits.

Training on constant or non-finite responses (style c)

* C127 non-finite numbers are closed under multiplication, addition and division of anything, so they pass through sums of products and triangular solves to the coefficients; a zero or NaN standard deviation turns their products into NaN. A NaN on the diagonal, or below the first infinite pivot, stops the factorisation. Objects with the same noise and settings are trained alike because every other attribute is overwritten.
* C128 the same for Co-Kriging. A noise that is not finite stays so under division and multiplication, which is all that later calls do to it, and it stops the factorisation of the low-fidelity model. A non-finite scaled low-fidelity response makes the low-fidelity variance and with it the first column of the joint covariance non-finite, which stops that factorisation.
* C129 a deviation of at least 2^512 from the mean has an infinite square; sums of squares have a plus sign, so one infinite term makes them infinite and not NaN. Division of a finite noise by infinity gives zero, so the correlation matrix is that of noise zero; step by step the two runs raise at the same places.
* C130 the same for Hierarchical Kriging. Its trend is divided by the standard deviation, so a non-finite one makes every entry of the trend zero or NaN; products with such a factor and sums of them are zero or NaN, which stops the factorisation of the one by one matrix before the noise is set.
* C131 the same for Scaled Kriging. A non-finite response or low-fidelity prediction makes a discrepancy non-finite and with it their standard deviation NaN; discrepancies that are all zero have standard deviation zero; both stop the last training of the discrepancy model (C127).

Acquisition functions in floating point (style c)

* C132 a case distinction on NaN, infinite and finite operands; finite predictions up to 2^300 cannot overflow in the products and sums of the formulas, and the added 1e-9 or the mask keeps denominators away from zero. C127 gives the models that always answer NaN.
* C133 each operation adds a relative error of 2^-53 and an underflow of 2^-1075. The mean value theorem with t phi(t) <= 5/12 and t^2 phi(t) <= 5/6 turns a relative error of the ratio into an absolute one of the normal functions; the exact effect of the added 1e-9 is that of C59. Rounding is monotone, which gives the order.

Samples in floating point (style c)

* C134 the scaling is a difference, a product and a sum, each with a relative error of 2^-53; rounding is monotone, which gives the order. A draw in a stratum then gives a sample within the error of the scaled stratum, and a sample further than that from the edges can only come from a draw in the same stratum. The refutations are two concrete runs.

Predicted means in floating point (style c)

* C135 each correlation is accurate to a few units (C108's kernel lemmas); the two dot products, the sum and the scaling back each add one unit per operation; the bounds on weights and responses exclude overflow.
* C136 the trained weights come from two triangular solves with the computed Cholesky factor. The residual of each solve (contract `backward_stable`: a normwise backward error `eps`, and a finite solution only for a finite right hand side), the residual of the factorisation (contract `cholesky64`, with `lower_factor`: zeros above the diagonal) and the errors of the covariance entries add up to a bound on the residual of the exact normal equations at the computed weights; C135 then bounds the prediction at a sample. The noise and the 1e-10 on the diagonal are the exact difference between the row of the covariance and the correlations of the point.

Predicted standard deviations in floating point (style c)

* C137 the quadratic form of the computed factor stays above 10^-10 minus rounding (positive semidefiniteness of the exponential kernel, StdFlReal.v). So the solution of the two triangular systems for the correlations of sample i is the i-th unit vector up to a small vector, small also in the energy norm. The first part of the variance is then below -0.48 * 10^-10. The second part, which accounts for the estimated trend, is at most 0.2 * 10^-10 by the Cauchy-Schwarz inequality in the energy norm. The computed variance is negative and is cut off at zero. The refutation is a concrete run with the samples exchanged. If the solver returns finite solutions only, all intermediate values are finite, the product with the variances is finite or minus infinity, and so the deviation is not a NaN either.

* C138 by cases on NaN, infinities and finite numbers: squares, maxima with zero, sums and square roots of numbers that are not negative stay so; a sum is at least its second part and the square root is monotone, also after rounding; the rounded square root of a rounded square is within 2^-50 of the number. For the Gaussian process the bound by the noise is refuted by a concrete run. No contract about NumPy is used.

## 5. Not modelled

* Plots apart from the calls in C102 and C124 (fonts, labels), the text of printed lines, timing, the pickle format, `deepcopy` (copies are values).
* SciPy/NumPy internals: random generators, quasi-random engines, L-BFGS-B and SciPy's differential evolution appear only through contracts.
* Rounding in the likelihoods, in the predictions of the multi-fidelity models and in the benchmark functions. Rounding in the means of a Gaussian process is C135 and C136. Rounding in the acquisition formulas is C132 and C133, with `norm.cdf` and `norm.pdf` as arguments; in the exact models they have exact values.
* Overflow in benchmark functions. Data types other than float64, apart from integer arrays in C97.
* What an exception leaves behind in objects given user-supplied low-fidelity or discrepancy models (for the default ones it is modelled).
* Estimated standard deviation zero (constant responses): in the exact models division by zero is a separate outcome about which nothing is claimed, except where a property says so. What happens then in binary64 is C127 for the Gaussian process, C128 for Co-Kriging, C130 for Hierarchical Kriging and C131 for Scaled Kriging; C129 is about infinite standard deviations.

## 6. Trusted base

* Coq 8.16.1's kernel, including its virtual machine (`vm_compute`).
* The model files: that they describe the Python code. The definitions in `*Spec.v`.
* The contracts on NumPy, SciPy and LAPACK, which are hypotheses of the theorems:
  uniform draws in [0, 1) (or [0, 1] for Latin hypercubes), permutations from `np.random.choice` without
  replacement, Sobol streams; `sum_of` (np.sum adds in some order), `dot_of` (np.dot likewise, fused or not), `exp_ok`
  (np.exp within one unit in the last place), `cholesky64` (LAPACK's potrf reduces entries in some order and rejects pivots that are not positive, NaN among them; some other
  libraries let NaN pass, which is why the theorems of C127 to C131 that need this say so), `solve_keeps`, `solve_one`, `solve_by_matrix`, `only_linalg`, `backward_stable`, `finite_solutions` (numpy.linalg.solve; the last one only in C137_finite, since LAPACK may return infinities), `lower_factor` (numpy.linalg.cholesky returns zeros above the diagonal),
  `normal_kind`, `normal_near`, `cdf_ordered` (scipy.stats.norm), `prod_of` (np.prod multiplies in some order);
  the results of SciPy's optimizers lie within bounds where a theorem says so.
* No axiom is declared in this development, and there is no `Admitted`. `Print Assumptions` lists only axioms of the
  standard library. The groups are:

  * A0: none (closed under the global context) (13 theorems)
  * A1: `ClassicalDedekindReals.sig_forall_dec` (1 theorems)
  * A2: `ClassicalDedekindReals.sig_forall_dec`, `FunctionalExtensionality.functional_extensionality_dep` (23 theorems)
  * A3: `ClassicalDedekindReals.sig_forall_dec`, `ClassicalDedekindReals.sig_not_dec`, `FunctionalExtensionality.functional_extensionality_dep` (24 theorems)
  * A4: `ClassicalDedekindReals.sig_forall_dec`, `ClassicalEpsilon.constructive_indefinite_description`, `Classical_Prop.classic`, `FunctionalExtensionality.functional_extensionality_dep` (9 theorems)
  * A5: `ClassicalDedekindReals.sig_forall_dec`, `ClassicalDedekindReals.sig_not_dec`, `Classical_Prop.classic`, `FunctionalExtensionality.functional_extensionality_dep` (264 theorems)
  * A6: `ClassicalDedekindReals.sig_forall_dec`, `ClassicalDedekindReals.sig_not_dec`, `ClassicalEpsilon.constructive_indefinite_description`, `Classical_Prop.classic`, `FunctionalExtensionality.functional_extensionality_dep` (184 theorems)
  * A7: `ClassicalDedekindReals.sig_forall_dec`, `ClassicalDedekindReals.sig_not_dec`, `Classical_Prop.classic`, `FunctionalExtensionality.functional_extensionality_dep`, and 51 `PrimInt63.*` and `Uint63.*` items (21 theorems)
  * A8: `ClassicalDedekindReals.sig_forall_dec`, `ClassicalDedekindReals.sig_not_dec`, `ClassicalEpsilon.constructive_indefinite_description`, `Classical_Prop.classic`, `FunctionalExtensionality.functional_extensionality_dep`, and 51 `PrimInt63.*` and `Uint63.*` items (1 theorems)

Notes on these names.

* `sig_forall_dec`, `sig_not_dec`, `functional_extensionality_dep` are the standard library's axioms for the
  classical real numbers. `classic` is excluded middle, used by Flocq and Coquelicot.
* `constructive_indefinite_description` gives mathcomp's choice structure on `R` (RStruct.v).
* `PrimInt63.*` and `Uint63.*` are Coq's primitive 63-bit integers and their standard library specification. They come
  from the Interval tactic, run with `i_prec` so that primitive floats are not used.
* A tool that lists every constant without a body also shows fields of mathcomp's sealed modules, such as
  `Imset.*`, `PermDef.*`, `FinfunDef.*`, `SubsetDef.*`, `MPi.*`, `Repr.*` and `Finite.EnumDef.enumDef`. These are
  definitions hidden behind module signatures inside mathcomp, not axioms: `Print Assumptions` does not list
  them.

The theorems of each group:

* A0: C03_fix_number, C33_selection, C35_order, C35_pairs, C73_array, C73_call, C78_list_optimum, C102_delivered,
  C102_dimensions, C102_distinct, C102_levels, C102_many_levels_refuted, C102_single.
* A1: C89_vflcb.
* A2: C01_exact_in_box, C02_lhs_stratified, C23_clamp, C46_inverse, C46_order, C46_unit_cube, C60_lcb, C60_monotone,
  C60_vflcb, C61_minimum, C61_scheme, C66_booth, C66_himmelblau, C66_inside, C92_cheap, C92_nearest, C92_zero,
  C95_ackley_n2, C95_cost, C95_dimension, C95_domain, C123_lcb, C123_vflcb.
* A3: C62_attained, C62_declared, C62_dimension_zero, C64_declared, C66_bohachevsky, C70_park, C71_ackley,
  C71_negative, C71_own, C71_thevenot, C71_two, C93_discontinuous, C93_forrester, C93_one_dimension, C93_park,
  C93_two_dimensions, C94_constraint, C94_no_constraint, C97_points, C103_close, C103_reflexive_symmetric,
  C103_separated, C103_transitive_refuted, C123_ei_origin.
* A4: C35_bases, C46_corners, C54_convex, C54_minimiser, C54_quadratic, C54_zero, C114_error_origin_refuted,
  C114_error_scale, C120_bases.
* A5: C01_lhs_in_box, C01_lhs_lower_bound, C01_lhs_upper_bound_refuted, C01_random_in_box, C01_sobol_in_box,
  C04_non_nested_levels, C04_shared_lhs, C04_shared_sobol, C05_nested_levels, C06_rule_only, C06_rule_violation,
  C07_list_after_failure, C07_list_consumed, C08_sobol_prefix, C08_sobol_slices, C09_nested_lhs_refuted,
  C09_non_nested_reproducible, C09_random_sampler_reproducible, C09_sobol_reproducible, C10_nested_own_box_refuted,
  C11_sobol_too_many, C11_sobol_work, C12_negative_rate_refuted, C12_pso_in_space, C12_pso_no_nan, C13_de_in_space,
  C14_de_history, C14_pso_history, C15_de_best, C15_pso_best, C15_pso_late_nan_refuted, C16_de_never_worse,
  C16_de_selection, C17_pso_personal_best, C18_de_outputs, C18_pso_outputs, C19_de_calls, C19_de_returns,
  C19_de_stopping, C19_pso_calls, C19_pso_returns, C19_pso_stopping, C20_de_donors, C21_de_trials, C22_de_poisoned,
  C22_pso_poisoned, C23_binary64_bound, C23_binary64_refuted, C24_de_no_generation, C24_de_rejected,
  C24_pso_no_generation, C25_sf_best, C26_sf_history, C26_sf_keeps, C26_sf_records, C27_cons_stopping,
  C27_sf_stopping, C27_sf_unknown_optimum, C28_cons_best, C28_cons_history, C28_cons_keeps, C29_cons_best_x,
  C29_infeasible_tie_refuted, C30_mf_best, C30_mf_low_fidelity, C31_mf_initial_design, C31_mf_one_fidelity,
  C31_mf_records, C32_default_tolerance, C32_mf_stopping, C32_mf_stopping_rule, C32_mf_unknown_optimum, C34_in_space,
  C34_user_optimizer, C48_best_trial, C48_no_trial, C58_bounds, C58_choice, C58_density, C58_eval, C58_formula,
  C58_monotone, C58_normal, C58_unique, C59_eval, C59_monotone, C62_minimum, C62_unique, C63_minimisers, C63_minimum,
  C64_above, C64_beaten, C64_one_dimension, C65_minimum, C65_swapped, C69_hartman3, C69_hartman6, C69_hartman6_low,
  C70_borehole, C70_currin, C72_objective, C74_pso_records, C75_mf_nan, C75_sf_nan, C76_mf_recovers_refuted,
  C76_sf_recovers, C77_unusable_models, C79_mf_sobol_points, C79_sobol_points, C80_cons_completes, C80_mf_completes,
  C80_sf_completes, C93_park_positive, C94_batch, C94_low_fidelity, C94_low_numbers, C94_no_low_fidelity, C94_numbers,
  C96_ackley_n2, C96_flat, C96_forrester, C96_forrester_vector, C96_hartman, C96_narrow, C96_no_point, C96_point,
  C96_wide, C98_currin_decreasing, C98_hartman3, C98_hartman6, C99_entry, C99_positive_definite_refuted,
  C100_factored_refuted, C100_outcome, C101_bounds, C101_monotone, C101_unit_interval, C104_constant,
  C104_constant_refuted, C104_pair, C104_poison, C104_single, C105_mean, C105_monotone, C105_restored, C105_scaled,
  C105_scaled_refuted, C105_second_moment, C105_std, C122_constant_refuted, C122_de, C122_power_of_two, C122_pso,
  C123_ei, C123_pi, C124_curve_refuted, C124_de, C124_de_calls, C124_de_lines, C124_de_plot, C124_pso, C124_pso_calls,
  C124_pso_lines, C124_pso_plot, C124_torn_refuted, C127_after, C127_always_raises, C127_as_given,
  C127_default_raises, C127_flat, C127_given_noise, C127_kept, C127_learned_noise, C127_not_finite, C127_poisoned,
  C127_poisoned_std, C127_single, C127_trained, C127_trained_means, C128_after, C128_after_std, C128_always_raises,
  C128_exceptions, C128_noise, C128_ruined, C128_single, C128_stops, C128_trained, C129_after, C129_ck_after,
  C129_ck_gone, C129_ck_noise, C129_ck_ruined, C129_ck_std, C129_infinite, C129_learned_noise, C129_learned_raises,
  C129_learned_ruined, C129_silent, C129_spread, C129_unnoticed, C130_after, C130_exceptions, C130_high_raises,
  C130_high_stops, C130_kept, C130_learned_zero, C130_low_after, C130_low_learned, C130_low_raises, C130_low_ruined,
  C131_agree, C131_exceptions, C131_flat, C131_high_after, C131_kept, C131_learned, C131_low, C131_low_after,
  C131_not_finite, C131_ruined, C131_single, C132_aei_high, C132_aei_low, C132_cei_finite, C132_cei_poisoned, C132_ei,
  C132_epi_high, C132_epi_low, C132_lcb, C132_pi, C132_ruined, C132_sample, C132_vfei_high, C132_vfei_low,
  C132_vflcb_high, C132_vflcb_low, C133_aei, C133_cei, C133_choice, C133_ei, C133_lcb, C133_lcb_order, C133_pi,
  C133_pi_order, C133_vfei, C134_apart, C134_last_level, C134_levels, C134_near_lhs, C134_near_random,
  C134_near_sobol, C134_nested_refuted, C134_order, C134_strata, C134_strata_exact_refuted, C135_accurate,
  C136_any_order_refuted, C137_any_order_refuted, C138_co_kriging, C138_gaussian_process,
  C138_gaussian_process_noise_refuted, C138_hierarchical_kriging, C138_scaled_kriging.
* A6: C36_correlation, C36_formula, C36_translation, C37_positive_definite, C38_call, C39_batch_differs, C39_jitter,
  C39_position, C40_predict, C40_train_full_rank, C40_train_ordinary, C41_interpolates, C42_data, C42_least_squares,
  C42_ordinary_positive, C43_std, C44_equivariant, C44_objective, C45_input_units, C46_responses, C47_given_noise,
  C47_kernel_only, C47_learned_once, C49_de, C49_lbfgs, C49_pso, C50_logp, C50_noise_free_differs, C51_interpolates,
  C52_proportional, C53_predictions, C53_same_mean_refuted, C53_samples, C53_train, C55_covariance, C55_trained,
  C56_drift, C56_history, C57_history, C57_learned, C57_train_divides, C57_zero, C58_gaussian_process, C58_sampled,
  C59_constrained, C59_feasibility, C59_feasibility_monotone, C59_unconstrained, C60_hierarchical, C60_sampled,
  C60_scaled, C81_high_fidelity, C81_low_fidelity, C82_hierarchical_low, C82_hierarchical_trained, C82_scaled_low,
  C82_scaled_untrained, C82_unknown_fidelity, C83_noise, C83_predict, C83_std, C83_train_iff, C84_predict, C84_train,
  C85_bumpiness_noise, C85_given_noise, C85_unknown_method, C86_logp, C86_numeric_noise, C87_negative_scale,
  C87_only_hierarchical, C87_scale, C87_vfei, C88_batch, C89_augmented, C89_extended, C89_vfei, C90_augmented,
  C90_not_a_number, C91_correlations, C91_crowding, C91_extended, C99_positive_definite, C100_factored,
  C101_training_set, C106_at_samples, C106_data_replaced, C106_exceptions, C106_never_trained, C106_other_size,
  C106_rollback_refuted, C106_same_sites, C106_same_sites_std, C107_agrees, C107_forgets, C107_same_answers,
  C107_same_outcome, C108_agrees, C108_forgets, C108_other_size, C108_rollback_refuted, C108_same_sites, C108_stages,
  C109_agrees, C109_never_trained, C109_rollback_refuted, C109_same_sites, C109_sizes, C109_stages,
  C110_disturbed_refuted, C110_forgets, C110_learned, C110_noise, C110_repeated, C110_zero, C111_disc_same_sites,
  C111_disc_sizes, C111_lf_same_sites, C111_lf_sizes, C111_rollback_refuted, C111_stages, C111_unknown_method,
  C112_agrees, C112_forgets, C112_learned, C112_learned_first, C112_noise, C113_equivariant, C113_low_origin_refuted,
  C113_low_scale, C113_objective, C114_equivariant, C115_equivariant, C115_objective, C115_objective_refuted,
  C116_cokriging, C116_hierarchical, C116_scaled, C117_concentrated, C117_maximum, C117_maximum_ordinary,
  C117_unit_variance, C117_value, C118_cokriging_concentrated, C118_cokriging_maximum, C118_cokriging_mean,
  C118_cokriging_unit_variance, C118_hierarchical_concentrated, C118_hierarchical_maximum,
  C118_hierarchical_unit_variance, C118_low_fidelity, C119_failure, C119_first_rows_refuted, C119_objective,
  C119_order, C120_cokriging, C120_gaussian_process, C120_hierarchical, C121_no_surprise, C121_uncertainty, C123_aei,
  C123_cei_origin, C123_epi, C123_gaussian_process, C123_hierarchical, C123_pi_refuted, C123_threshold_refuted,
  C123_vfei, C123_vfei_origin, C125_failed, C125_learned, C125_learned_refuted, C125_once, C125_retry_refuted,
  C125_samples, C125_untrained, C126_cokriging, C126_gaussian_process, C126_hierarchical, C126_trend,
  C136_interpolates, C136_samples, C137_finite, C137_zero.
* A7: C63_declared, C63_inside, C67_forrester, C68_sasena, C68_sixhump, C68_sixhump_scheme, C69_hartman3_domain,
  C69_hartman3_scheme, C69_hartman6_scheme, C72_branin1, C72_branin2, C97_currin, C98_borehole, C98_borehole_range,
  C98_currin, C98_currin_attained, C98_one_dimension, C98_park_a, C98_park_a_corner, C98_park_a_increasing,
  C98_park_b.
* A8: C117_ranking_refuted.
