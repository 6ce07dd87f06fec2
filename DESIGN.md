# Design: a Rocq (Coq 8.16.1) model of `opinf`

The subject is Willcox-Research-Group/rom-operator-inference-Python3 at the pinned commit in
`/repo`.  Nothing of the project is run here; the model is written from the source text, and every
model definition cites the file and lines it models (paths relative to `/repo/src/opinf`).

Contents: 1. how the code is modelled; 2. plan and result per property; 3. trusted base;
4. what is modelled and what is not, file by file; 5. where the code does not do what one would expect;
6. wrong programs.

## 1. How the code is modelled

* **Scalars** are the real numbers `R` of Coq's standard library.  Floating point is idealised: no
  rounding, no overflow; `NaN`/`inf` exist only where a decision depends on them (grid search,
  lifting, stability of predictions, entry validation), there as explicit extra values (`fnum`, `fl`).
* **Arrays**: a one-dimensional array is `list R`; a two-dimensional array is the list of its rows
  `list (list R)`, with `is_mat r c M` for "shape (r, c)".  A matrix without rows has no column count.
* **Exceptions are values**: `res A := Ok a | Err e`, with one constructor of `e` per exception class.
* **Mutation**: methods that mutate return the new object, also when they raise: an assignment or a
  `fit()` that raises half way leaves behind what the code leaves behind.  Where the property is about
  mutation of arrays (in-place transforms) the model has a heap with views; timers and files have an
  explicit world.
* **Histories**: classes with mutable state (operators, solvers, `PODBasis`, models, parametric models)
  are state machines; properties "after any history" are invariants over arbitrary lists of operations.
* **External numerics** (`svd`, `lstsq`, `solve`, `eigh`, interpolators, ODE integrators, optimizers,
  random generators, user functions) are parameters of the model.  What is assumed of them is a visible
  hypothesis of the theorem; the vocabulary is in `SpecExt.v`, `SpecLstsq.v`, `SpecParam.v`, `SpecGrid.v`.
* Loops become structural recursion or folds with the same order of evaluation.

Files in `rocq/theories`: `*Model.v` hold the model (no proofs), `Spec*.v` the independent
specification vocabulary, `NumPy.v` the NumPy primitives, `Prop_*.v` only property theorems (each closed by
`exact`), each followed by `Print Assumptions`, and examples showing that the hypotheses can be met;
the other files hold proofs.  Concrete objects for the examples and the refutations are in `*Ex.v`.

Theorems named `..._refuted` prove that a part of the English claim is false of the code: they exhibit a
concrete history on which it fails.  The property text then says "(False, and refuted: ...)".

## 2. Plan and result per property

| id | property | modelled | proved by | result |
|---|---|---|---|---|
| C01 | Shift/scale transformers invert exactly | transform / inverse_transform of Shift, Scale, ShiftScale (all branches), Null, pipelines, joins | entrywise field identities, the fit model gives the nonzero hypothesis; induction on members | proved: 4 theorems, 1 refutations. Every trained transformer (also pipelines and multi-variable joins) inverts in both directions; fit makes it trained; constructors give fittable transformers. Refuted when the reference of a ShiftTransformer is a view of data transformed in place. |
| C02 | Inverse transform at selected locations | `_check_locs`, locs branches | entrywise | proved: 3 theorems, 1 refutations. Integer-array and slice locations; boolean masks not modelled. Refuted for ShiftScaleTransformer(scaling=None, byrow=True), which raises TypeError. |
| C03 | Fitted scalings have the documented statistics | fit_transform for the scalings x byrow x centering | order-statistics lemmas for list max/min, mean, variance | proved: 3 theorems. All seven scalings, both byrow values, both centering values; fit succeeds on all non-degenerate data. |
| C04 | transform_ddts is the derivative of transform | transform_ddts everywhere | affine identities; induction on pipeline / variables | proved: 1 theorems. All transformers, pipelines and joins. |
| C05 | Pipelines compose and invert in order | TransformerPipeline | induction on the list of members, members abstract | proved: 3 theorems, 1 refutations. Transform, derivatives, inverse with or without locs, training order, round trip. The documented tuple argument is refused (refuted). |
| C06 | Multi-variable transformers act variable by variable | TransformerMulti, slices | induction on the size list | proved: 5 theorems, 1 refutations. Row blocks, get_var by index and name, all methods variable by variable, wrong row counts. get_var(-1) refuted. |
| C07 | Standalone shift and scale functions invert | shift(), scale() | field identities, min/max of an affine image | proved: 4 theorems. shift and scale functions. |
| C08 | inplace=False never changes the caller's array | heap of arrays with views, in-place flag | frame property on the heap, for every sequence of calls | proved: 3 theorems. Memory model with views; all four methods, all flags, all sequences of calls. |
| C09 | Compressing a decompressed state is the identity | LinearBasis compress/decompress, weights | matrix algebra on entries | proved: 5 theorems. Linear and POD bases with no, vector or matrix weights; idempotence, linearity; the orthogonality check modelled as np.allclose. |
| C10 | Projection is the best approximation | project, projection_error | orthogonality, Pythagoras column by column | proved: 4 theorems. Weighted orthogonality and best approximation column by column; error zero iff in the range; unweighted error is the minimum. |
| C11 | Decompressing at locations | decompress(locs) | entrywise | proved: 4 theorems. Integer arrays and slices; boolean masks not modelled. |
| C12 | Multi-variable bases are block diagonal | BasisMulti | induction on the list | proved: 12 theorems, 1 refutations. compress, decompress, project, split, get_var, fit, wrong sizes. Decompressing with a basis wider than tall is refuted. |
| C13 | POD rank selection is the documented minimum | criteria as list scans | minimality by list induction; witnesses for exact thresholds | proved: 16 theorems, 2 refutations. All five criteria and the functions. The documented non-strict threshold is refuted for the class when hit exactly; r = 0 possible (refuted). |
| C14 | POD basis stays a prefix of the stored singular vectors | PODBasis as a state machine | invariant over operation lists | proved: 6 theorems, 3 refutations. Any history of returning operations. Refuted after a raising fit, for negative dimensions, and for assignment followed by fit. |
| C15 | POD projection error equals the residual energy | POD fit with SVD as oracle | matrix algebra, tail energies | proved: 2 theorems, 1 refutations. Exact dense SVD (or any exact callable), any weights in the weighted norm; projection_error() without weights. With weights projection_error() is refuted. |
| C16 | Method of snapshots returns an orthonormal basis | method_of_snapshots with eigh as oracle | matrix algebra | proved: 4 theorems, 1 refutations. Exact eigendecomposition. Reconstruction when all eigenvalues are positive is refuted. |
| C17 | Compressed Kronecker products enumerate each monomial once | ckron, ckron_indices | index tuples: every tuple is a permutation of one non-increasing tuple (Permutation of NoDup lists) | proved: 4 theorems. all three classes, vectors and matrices of states |
| C18 | compress_entries preserves the operator | compress_entries loops | sums over permutation classes | proved: 2 theorems |
| C19 | expand_entries is a symmetric right inverse | expand_entries, the Newton search for r | symmetrised sums; Newton convergence bounded | proved: 4 theorems. the Newton search for r is proved to succeed up to r=10^11 (cubic) / 10^8 (quartic); C19_expand_never_wrong covers every r |
| C20 | Operator Jacobians are the derivatives of apply | apply, jacobian | `derivable_pt_lim` along every direction | proved: 2 theorems, 1 refutations. all nonparametric operator classes; refuted for PolynomialOperator, whose inherited jacobian is zero |
| C21 | Data blocks reproduce apply column by column | datablock | matrix algebra | proved: 1 theorems |
| C22 | Galerkin projection commutes with apply | galerkin | multilinearity, induction on the degree | proved: 4 theorems. la.solve enters as a hypothesis; the case where W'V is within np.allclose of the identity but different from it is excluded (the code then skips the solve) |
| C23 | Polynomial operators agree with the dedicated classes | PolynomialOperator | agreement with the dedicated classes | proved: 4 theorems |
| C24 | Affine operators evaluate and regress consistently | AffineOperator | linearity in the coefficients | proved: 5 theorems. la.solve enters as a hypothesis; galerkin with the same exclusion as C22 |
| C25 | Interpolated operators decouple over training parameters | InterpOperator | oracle interpolator, histories | proved: 4 theorems, 1 refutations. the interpolators are parameters; CubicSpline is assumed to interpolate on increasing parameters; refuted for a second set_entries / copy with unsorted parameters |
| C26 | Operator entries are validated before use | set_entries etc. as a state machine | case analysis, refinement to "an operator is its entries" | proved: 12 theorems, 2 refutations. sparse entries: only the validation is modelled |
| C27 | operator_matrix and extraction are inverse | model fit pipeline | induction on the operator list | proved: 2 theorems. After any history, fit and refit. |
| C28 | Fitting minimises the model residual | fit = least-squares problem | composition with C21 and C35 | proved: 2 theorems. All solvers with a documented penalty (plain, L2, L2 decoupled, Tikhonov, Tikhonov decoupled); truncated SVD and total least squares solve other problems (C38, C39). |
| C29 | Right-hand side and Jacobian are sums over operators | rhs, jacobian | induction on the operator list, `derivable_pt_lim` | proved: 9 theorems. After any history; Jacobian as directional derivative. |
| C30 | Discrete prediction follows the recurrence | predict loop | induction on the horizon | proved: 8 theorems |
| C31 | Trajectory stacking makes exactly the successive pairs | stack_trajectories | induction on trajectories | proved: 5 theorems |
| C32 | Model construction keeps dimensions consistent | operators setter, dimensions | invariant over histories | proved: 9 theorems, 3 refutations. Histories include raising calls, except rejected assignments of operators or regularizers and refit of an untrained model; these exclusions are refuted. |
| C33 | Parametric models evaluate to their non-parametric counterpart | parametric models | composition, histories | proved: 10 theorems, 1 refutations. After any history, raising calls included. Interpolator classes are assumed faithful at distinct training parameters. Refuted: fitting with a known interpolated operator. |
| C34 | Interpolatory models equal separate fits | InterpModel | one separate fit per parameter, histories | proved: 1 theorems, 1 refutations. All operators learned, after any history. Refuted with known operators. |
| C35 | Least-squares solvers solve their stated problem | solvers | normal equations imply minimality; oracle SVD / lstsq / solve | proved: 12 theorems. All five regularised solvers, both Tikhonov methods, after any history; scipy lstsq, svd and solve enter through their documented behaviour. |
| C36 | Reported residuals are the objective values | residual, regresidual | entrywise | proved: 9 theorems, 1 refutations. Per-row objective values, nonnegativity, minimality, shapes. One-dimensional argument of the decoupled Tikhonov solver refuted. |
| C37 | Per-operator regularizers penalise the right columns | get_operator_regularizer | block columns | proved: 4 theorems. Regularizer entries, block penalties, sizes and errors. |
| C38 | Truncated SVD solver solves the truncated problem | TruncatedSVDSolver | Eckart-Young proved for orthonormal families | proved: 4 theorems. Eckart-Young is proved, not assumed. num_svdmodes assignment and clipping. |
| C39 | Total least squares solves a nearby consistent system | TotalLeastSquaresSolver | minimal perturbation | proved: 2 theorems. Also: no smaller perturbation makes the system consistent, and error() is its size. |
| C40 | Failed regularizer assignments change nothing | setters | frame; false parts refuted by a history | proved: 5 theorems, 3 refutations. Positive parts proved for all solvers; false after fit() for wrong shapes (three _refuted theorems). |
| C41 | Finite differences are exact on polynomials | finite difference formulas | moment conditions, binomial expansion | proved: 3 theorems. real arithmetic; "not exact at the next degree" included |
| C42 | Uniform differencer keeps states, inputs and derivatives aligned | UniformFiniteDifferencer | index alignment | proved: 5 theorems, 1 refutations. refuted: the number of snapshots is not compared with the time domain |
| C43 | ddt_uniform and ddt_nonuniform estimate every snapshot | ddt_uniform, ddt_nonuniform | moment conditions | proved: 4 theorems, 1 refutations. real arithmetic (integer arrays are truncated by the code: not modelled); refuted for a positional integer step |
| C44 | Grid search returns a feasible minimiser | gridsearch with optimizer oracle | argmin lemmas | proved: 8 theorems, 1 refutations. scipy optimizers are arbitrary finite strategies that report a point they evaluated; the bracket also needs that the bounded one stays in its bounds. False for candidates containing 0, where ValueError is raised (C44_zero_refuted). |
| C45 | Saving never clobbers without permission | file store with crashes | store model, every cut of the sequence of h5py calls | proved: 10 theorems, 3 refutations. The file system maps paths to files; a save is the sequence of h5py calls of the class, any of which may raise, and the process may be killed between any two. Whether the remains of a killed save can be opened is left open. Refuted: the default of OperatorPosterior, and overwrite=True with a save that does not return. |
| C46 | Saved objects load back equal | save/load dictionaries | round trip by class; exceptions refuted | proved: 23 theorems, 16 refutations. Files are trees of datasets and attributes; h5py returns what was written. Functions (affine coefficients) are given again on load, interpolator classes are found by name. Exceptions are refuted one by one. Sparse arrays and parametric models other than the interpolatory ones (whose save() is not implemented) are not covered. |
| C47 | Timed blocks time out exactly when they should | alarm state machine | invariant over nested programs | proved: 7 theorems, 4 refutations. One clock, one alarm, one handler; programs are nestings of work, exceptions, try and blocks. Nested limits, handlers of the caller, own TimeoutErrors and bodies that catch everything are refuted. Printing, logging and rebuffering are not modelled. |
| C48 | Re-projection recovers the intrusive reduced model | reproject loops | induction; composition with C28 | proved: 8 theorems. Re-projection: the discrete version equals predict() of the Galerkin model, the continuous version gives its right-hand sides; a model of the same structure fitted to the data has residual zero (plain solver) and equals the Galerkin model when the data matrix has independent columns; with regularization the objective is at most the Galerkin penalty. The caller-supplied f is assumed to evaluate the full-order model, the basis to be orthonormal. |
| C49 | Lifting is invertible and consistent with the chain rule | lifters | real powers, chain rule with `derivable_pt_lim` | proved: 12 theorems, 4 refutations. Powers of real numbers without rounding, with inf and nan. verify() is not modelled. |
| C50 | Error measures are norms of the difference | error measures | norm axioms, Minkowski | proved: 26 theorems, 3 refutations. Real arithmetic; nan and inf are None. Minkowski is proved for every real p >= 1. |
| C51 | ROM encode/decode compose the parts | ROM encode/decode | composition of the parts | proved: 17 theorems. Parts are an arbitrary lifter, a trained transformer and an orthonormal basis, each optional. What is asked of the lifter is proved of the two lifters of the library. |
| C52 | ROM prediction is the decoded reduced prediction | ROM fit/predict | composition | proved: 15 theorems, 2 refutations. predict() of time-discrete models; ROM.predict with a time-continuous model is the same composition around scipy integration, which is not modelled. Derivative estimators are arbitrary functions. Short input lists and steady models are refuted. |
| C53 | Regularization selection only accepts stable models | fit_regselect_* | composition of C44, C52 | proved: 12 theorems, 3 refutations. predict() is an arbitrary function that returns one row per reduced coordinate; scipy optimizers are arbitrary strategies that report a point they evaluated. Regularization of non-parametric models. Refuted: nan in the test horizon, short horizons, zero data. |
| C54 | Untrained objects refuse to work | requires decorators | case analysis, histories | proved: 17 theorems, 1 refutations. Histories of solvers and PODBasis contain raising calls; a failing fit of a transformer is not followed further. scipy is assumed not to raise AttributeError itself. L2DecoupledSolver after a raising fit is refuted (C54_decoupled_refuted). Printing-only methods marked as requiring singular values are not modelled. |
| C55 | Model equality matches operators one to one | greedy matching in == | Permutation | proved: 7 theorems, 2 refutations. Copies too; what copies forget is refuted. |
| C56 | Bayesian reduced-order models sample the Gaussian posterior of the regularised problem | posterior, BayesianROM | matrix algebra, search as in C53 | proved: 17 theorems, 3 refutations. BayesianROM without parameters; the random generator, the predict method of the model and the optimizers are arbitrary. scipy.stats is assumed to invert precision matrices. Not modelled: plotting, verbose output, predict of parametric models. |
| C57 | A raising fit leaves the solver consistent | failing fits of the solvers | frame; false parts refuted | proved: 2 theorems, 2 refutations. Rejected arguments change nothing; two _refuted histories show stale precomputed data in TikhonovSolver and TotalLeastSquaresSolver. |
| C58 | regcond is the condition number of the regularised data matrix | regcond | extreme singular values of the stacked matrix | proved: 2 theorems, 1 refutations. For at least as many rows as columns; refuted for wide matrices. |
| C59 | Galerkin projection of a model commutes with its right-hand side | galerkin of models | C22 and C29 | proved: 2 theorems. W'V equal to the identity, or not np.allclose to it. |
| C60 | Accepted regularizers mean what was given and suit the data | regularizer setters | meaning of each accepted form | proved: 11 theorems. Lists, sparse matrices and nested lists are arrays here. |
| C61 | Predictions of time-continuous models are trajectories of the learned system | ContinuousModel.predict, ROM.predict of it, parametric version; integrator and spline are parameters | the problem handed over is the learned one; Lipschitz bound and Gronwall for uniqueness | proved: 12 theorems. The integrator (solve_ivp) and the interpolation of inputs (CubicSpline, assumed to meet the data) are parameters; accuracy of the integrator is a hypothesis about the one problem it is given. Times in increasing order. Not modelled: solver options, the warning on failed integrations, functions that return sometimes numbers and sometimes arrays. |
| C62 | Derivatives by interpolation are derivatives of curves through the data | InterpDerivativeEstimator: constructor, estimate, mask | rows of the interpolants, with the rule a parameter | proved: 8 theorems, 1 refutations. Interpolation rules (Akima, cubic splines, pchip) are parameters: functions that may refuse the data. What is asked of them is said in each theorem. Interpolators given as a class are refuted. |
| C63 | verify() of derivative estimators measures the errors it reports and leaves the estimator alone | verify_shapes and verify of derivative estimators | generic over the estimator; test functions differentiated; mean value theorem for the refutation | proved: 8 theorems, 2 refutations. Number of points and step sizes are arbitrary; real arithmetic, so that rounding for tiny steps is not seen. Printing and plots are not modelled. Refuted: backward and central schemes, exceptions during the comparison. |
| C64 | Galerkin projection of interpolated operators and parametric models; interpolating existing ones | galerkin of interpolated operators and of parametric models, _from_operators, _from_models | interpolation with linear weights is an affine operator at a fixed parameter, then C24 | proved: 16 theorems, 1 refutations. Interpolator classes are parameters: at the training parameters they are assumed to meet the data; for the statement at other parameters they are assumed to combine the data with weights that do not depend on the data (true of splines and piecewise linear interpolation). Refuted: galerkin() after construction with the default class and parameters that are not increasing. |
| C65 | == means interchangeable | __eq__ of transformers, bases and interpolated operators | == characterised, then congruence of the methods; counterexamples for the refuted parts | proved: 24 theorems, 7 refutations. Stated for all objects in reachable states. Whether two objects (members, interpolator classes) are the same object is a parameter. Refuted parts listed in the property. |
| C66 | verify() accepts what is right, rejects what is wrong, and touches nothing | verify() of transformers (on the memory model) and bases | row-affine form of every trained transformer, simulation of the heap program by a program on values; trace of an accepted run for the rejections | proved: 14 theorems, 3 refutations. Random draws are parameters. Methods of a user class are arbitrary functions on the memory model of C08. Refuted parts listed in the property. |
| C67 | verify() of operators tells right from wrong and cleans up | verify() of operators, library and user classes, and of parametric operators | trace of an accepted run; C20, C22, C46 for the library classes; quotients of a quadratic computed exactly | proved: 12 theorems, 4 refutations. Random draws are parameters; methods of a user class are arbitrary functions. lu_factor/lu_solve and solve are taken to solve invertible systems; SolveEx.v has routines that do. Real arithmetic. Refuted parts listed in the property. |
| C68 | copy() and verify() of least-squares solvers | copy() and verify() of solvers, library and user classes | invariants of C46 and C27 for the library; trace of an accepted run for user classes | proved: 10 theorems, 2 refutations. scipy.linalg routines are parameters with the usual assumptions. Real arithmetic. Methods of a user class are arbitrary; solve() returns arrays. Refuted parts listed in the property. |
| C69 | verify() of lifters | verify() of lifters, library and user classes | blocks of powers as in C49; finite differences exact on quadratics (C43) for affine states | proved: 8 theorems, 2 refutations. Real arithmetic with infinities and nan, as in C49. Methods of a user class are arbitrary functions that return arrays of one or two dimensions. Refuted parts listed in the property. |
| C70 | Models of user-defined operators learn the least-squares fit | models whose operators are of any class given by its methods | the misfit is linear in the learned entries; least squares as in C27; classes of the library and PolynomialOperator shown to be instances | proved: 10 theorems. Classes are records of the methods the model calls; the features are what the author of the class promises. scipy.linalg routines as in C27. Real arithmetic. |
| C71 | Named operators and str() of a model | named attributes, letters and str() of models | first match of a list; kept by fit() (C27); printed form injective by splitting at separators | proved: 9 theorems, 1 refutations. Operators of the library (PolynomialOperator and classes of a user are not found by the attributes). Strings are byte strings; the text of the solver is any function of the solver. Refuted part listed in the property. |
| C72 | Models made of operator objects of any class | models whose operators are any objects with apply, jacobian, galerkin, copy and == | sums over lists of functions, induction on the operators; greedy matching is symmetric and complete for equivalences | proved: 22 theorems, 2 refutations. Operator objects are records of the methods the model calls; what these compute is a hypothesis of each theorem, met by the operators of the library (C72_library_*). Solvers and learning are left out here (C27, C70). Real arithmetic. Refuted parts listed in the property. |
| C73 | Reduced-order models made of a transformer, a basis and a model of any class | ROMs whose transformer, basis and model are any objects with the methods a ROM calls; the objects after calls that raise | case analysis on the parts and induction on the trajectories; counterexamples computed | proved: 17 theorems, 2 refutations. Classes are records of the methods a ROM calls, returning the object after a call also if it raises; methods other than fit() and fit_transform() are taken to leave their object alone. fit_regselect_* of such ROMs is left out (C43 for the library). Real arithmetic. Refuted parts listed in the property. |
| C74 | Parametric models made of operators of any class | parametric models whose operators are any classes; affine and interpolated operators over any class | the regression is put in the form of C70 by tagging every snapshot with its trajectory; induction on operators and trajectories | proved: 12 theorems, 1 refutations. Classes are records of the methods a model calls. The theorems are about calls that return; what a call that raises leaves behind is C33 (library classes). The check of the dimension of a parameter at evaluation, which the classes of the library do, is taken to be done by every parametric class. Real arithmetic. |
| C75 | Exact data are learned exactly; more regularization, smaller operators | data produced exactly by some operators; two regularizers for the same data | corollaries of the minimality proved for C28, C35, C70 and C74; induction on the snapshots for the trajectory | proved: 7 theorems. That the data determine the operators is stated through the values of the model at the snapshots (no other matrices have the same values there). Real arithmetic: in floating point equality becomes closeness, which is not modelled. |
| C76 | Parametric models of any operator objects do at each parameter what their operators do | parametric models of operator objects of both kinds; the code shared with nonparametric models is C72's, over the sum of the two kinds | induction on the list of operators; evaluate() reduces every call to C72 | proved: 27 theorems. Operator objects are records of the methods the model calls; what these compute is a hypothesis of each theorem, met by the operators of the library (C76_library_*). Operators that take inputs at a parameter are required to take inputs as parametric operators. galerkin() is stated for calls that return. Learning is C74. Real arithmetic. |
| C77 | Variables are addressed by position and by name | the constructor of TransformerMulti and multi[key] of both multi-variable classes | induction on the list of members; decimal names are injective | proved: 9 theorems, 2 refutations. Keys are integers and strings (no slices). The agreement of multi[key] and get_var(key) is proved for names and nonnegative numbers; for negative numbers what get_var returns is proved (C77_negative_get_var) and the agreement refuted (C77_negative_refuted). Reaching a member by its own name is refuted if a default name collides with a chosen one (C77_own_name_refuted). |

## 3. Trusted base

* Coq's kernel (8.16.1), as run by `coqc`; no kernel check is switched off, no plugin is used.
* The axioms of Coq's standard library on which the real numbers are built, as `Print Assumptions` reports them
  under each theorem: `ClassicalDedekindReals.sig_forall_dec`, `ClassicalDedekindReals.sig_not_dec`,
  `FunctionalExtensionality.functional_extensionality_dep`, and `Classical_Prop.classic`.
  No axiom of the development itself: no `Axiom`, `Parameter`, section-less `Variable`/`Hypothesis`, `Admitted`, functor or module type.
* That the model says what the Python code does (read off the text, cited definition by definition), and the reading of
  NumPy and SciPy primitives in `NumPy.v` and `SpecExt.v`.
* The hypotheses about external routines that a theorem states.

What `Print Assumptions` lists for each property theorem:

* nothing (closed under the global context): C05: tuple_refuted; C12: split, get_variable, get_variable_by_name, constructor; C17: each_monomial_once; C23: operator_dimension_counts_monomials; C32: duplicates_rejected, rejected_assignment; C37: lstsq_size, lstsq_size_errors; C45: load_missing, load_format; C52: constructor; C56: solvers; C57: mismatch_is_rejected; C62: mask, rejects; C66: basis_untrained; C67: polynomial_operator_refuted, parametric_accepted; C70: duplicate; C71: first, structure_degrees; C72: constructor, constructor_state, eq_symmetric, eq_paired, eq_equivalence, copy, set_dimension; C73: encode, encode_lhs, encode_fit, decode, decode_encode, encode_decode, project, predict, fit, fit_raises, fit_refuses, fit_no_refit, parametric_fit, parametric_fit_raises, constructor; C74: duplicate; C76: constructor, parameter_dimensions, constructor_state, one_dimension, eq_symmetric, eq_paired, copy; C77: constructor, item, one_member, basis_and_variable, default_names, basis_default_names, negative_basis_get_var.
* `sig_forall_dec`: C06: split_concatenates, get_var_rows, get_var_minus_one_refuted; C11: bad_location, multi_different_sizes; C12: wrong_sizes, not_trained, not_trained_reduced, wide_basis_refuted; C18: compress_rejects_other_shapes; C26: set_entries_accepts_exactly, non_arrays_rejected, compressed_entries_stored, linear_entries_stored, input_entries_stored, stateinput_entries_stored, addition_rejects_other_class, addition_checks_sizes_refuted, sparse_entries_finite_refuted; C29: continuous_rhs; C30: inputs_not_used, wrong_state, wrong_inputs, callable_inputs, not_trained; C31: pairs, pairs_with_inputs, pairs_with_scalar_inputs, fit_inputs; C35: fit_records_the_data; C36: residual_1d, residual_wrong_shape; C37: errors; C38: assignment, fit; C45: refuses, default_refuses, forbidden, history, other_files, elsewhere, contents, overwrites, posterior_default_refuted, killed_refuted; C46: half_scaled_refuted, pod_no_right_vectors_refuted, operator_other_class, tsvd_none_refuted, tikhonov_shapes_refuted, posterior_precisions_refuted; C48: discrete_recurrence, discrete_rejects, continuous_columns, continuous_rejects; C54: affine_with_entries; C56: loaded_refuted; C60: l2_decoupled_fit, tikhonov_fit, tikhonov_decoupled_fit; C62: estimate, defined, mask_row, rejects_arguments, class_refuses; C67: affine_first_refuted, parametric_untrained; C70: constructor_accepts, polynomial_types; C72: constructor_behaves, rhs_raises, continuous_rhs, continuous_jacobian, predict_prefix, predict_rejects, copy_refuted, set_dimension_refuted; C73: predict_starts; C74: value_at_training_parameters; C76: evaluate, evaluate_raises, continuous_needs_input, predict_prefix, predict_rejects; C77: item_and_variable, negative_get_var, negative_refuted, own_name_refuted.
* `functional_extensionality_dep`, `sig_forall_dec`: C01: round_trip, constructors_build, reference_shared_with_data_refuted, reference_apart_from_data; C02: inverse_at_locations, multi_at_locations, multi_unequal_sizes, byrow_without_scaling_refuted; C04: ddts_is_the_derivative; C05: order_of_members, round_trip; C06: acts_variable_by_variable; C07: shift_by_the_mean, shift_by_a_vector, scale_between_intervals, scale_from_the_data; C09: compress_decompress, projection_idempotent, projection_linear, orthogonality_check, no_warning_if_orthonormal; C10: residual_orthogonal, best_approximation; C11: linear_and_pod, multi_variable; C12: compress, decompress, round_trip, projection; C13: svdval_decay_function, cumulative_energy_function; C17: ckron_lists_monomials, ckron_indices_agree, ckron_columnwise; C18: compress_preserves_operator; C19: expand_is_symmetric_right_inverse, expand_never_wrong, expand_compress_symmetrizes, expand_rejects_other_shapes; C20: jacobian_is_derivative, jacobian_total, polynomial_operator_refuted; C21: datablock_reproduces_apply; C22: galerkin_commutes, galerkin_inverse, galerkin_total, galerkin_rejects_misaligned; C23: datablock_lists_monomials, agrees_with_dedicated_classes, apply_is_polynomial; C24: evaluate_is_affine_combination, evaluate_apply, datablock_lists_evaluations, set_entries_from_block, galerkin_commutes_with_evaluate; C25: evaluate_at_training_parameter, evaluate_user_interpolator, datablock_block_diagonal, regression_decouples, second_set_entries_refuted; C26: full_kronecker_entries_stored, every_history, equality, addition, addition_applies; C29: continuous_jacobian; C33: evaluate_defined, rhs; C35: plain_solver, l2_solver, l2_decoupled, l2_defined, l2_decoupled_defined, tikhonov, tikhonov_decoupled, decoupled_agree_l2, decoupled_agree_tikhonov, l2_is_scaled_identity, not_ready; C36: residual, regresidual_l2, regresidual_l2_decoupled, regresidual_tikhonov, regresidual_tikhonov_decoupled, solution_has_least_regresidual, regresidual_1d, decoupled_regresidual_1d_refuted; C37: penalty; C38: defined; C40: l2, l2_decoupled, tikhonov, tikhonov_decoupled, tikhonov_decoupled_negative, l2_decoupled_shape_refuted, tikhonov_shape_refuted, tikhonov_decoupled_shape_refuted; C41: exact_on_polynomials, not_exact_at_next_degree, inputs_and_short_data; C42: estimate_matches_mask, derivatives_at_masked_times, too_short_raises, misaligned_inputs_raise, uniform_times_accepted, states_aligned_with_time_refuted; C43: ddt_uniform_exact, ddt_uniform_rejects, ddt_nonuniform_exact, ddt_dispatch, integer_step_refuted; C44: discrete_stability, continuous_stability; C45: raising_refuted; C46: length_one_scaler_refuted, name_None_refuted, linear_basis, basis_empty_name_refuted, operator, affine, affine_int_refuted, interpolated_new, interpolated_params, interpolated, interpolated_unsorted_refuted, interp_model, interp_model_trained, posterior, interpolated_unknown_class; C47: limit, exact, only_after_limit, cancels_alarm, no_alarm_left, never_killed, no_limit, nesting_refuted, caller_alarm_refuted, own_timeout_refuted, catching_refuted; C49: orders, half_refuted; C51: decode_order, decode_by_columns, locations; C53: test_times, short_horizon_refuted; C54: transformer_before_fit, joined_before_fit, multi_before_fit, new_transformers, operator_without_entries, operator_with_entries, parametric_without_entries, model_without_entries; C55: equality, reflexive, symmetric, transitive, reordering, copy_of_new_model; C56: l2_posterior, l2_decoupled_posterior, tikhonov_posterior, tikhonov_decoupled_posterior, vanishing_residual; C57: tikhonov_refuted; C60: l2_accepts, l2_value, l2_decoupled_accepts, l2_decoupled_value, tikhonov_accepts, tikhonov_value, tikhonov_decoupled_accepts, tikhonov_decoupled_value; C61: input_data, refuses_untrained, search, parametric; C62: derivative, class_refuted; C64: made, made_default, galerkin_at_training, galerkin_commutes, galerkin_defined, galerkin_raises, galerkin_unsorted_refuted, model_galerkin, from_operators, from_operators_default, from_operators_rejects, from_models, from_models_default, from_models_rejects, from_models_untrained, affine_copied, affine_projected; C65: basis_equal, basis_reflexive, basis_decompress_alike, basis_compress_alike, basis_compress_close, basis_compress_refuted, basis_symmetry_refuted, basis_transitivity_refuted, basis_mixed_refuted, basis_kinds, basis_multi_equal, basis_multi_reflexive, basis_multi_decompress_alike, basis_multi_compress_alike, interpolated_equal, interpolated_reflexive, interpolated_at_training, interpolated_copy, interpolated_stale_refuted; C66: affine, basis_verdict, basis_accepted, basis_multi_verdict, basis_multi_accepted, user_basis, user_basis_accepted; C67: affine_accepted, affine_then_evaluate, interpolated_accepted; C68: untrained, accepted_is_checked, files, user_file_refuted; C70: polynomial_class, library_class, dedicated_class; C71: letters_accepted, letters, evaluate; C72: rhs, jacobian, galerkin, predict, library, library_operators, library_jacobian, library_galerkin, predict_restart; C74: affine_class, affine_identity_class, interpolated_class, exact_interpolation_class; C75: l2_path, l2_bounded, tikhonov_path; C76: rhs, continuous_rhs, jacobian, predict, galerkin, library_setter, library_affine, library_affine_rejects, library_interpolated, continuous_jacobian, predict_restart, library_affine_projects, library_affine_projectable, library_affine_derivative, library_interpolated_derivative.
* `functional_extensionality_dep`, `sig_forall_dec`, `sig_not_dec`: C01: fit_trains; C03: documented_statistics, centered_rows, fit_succeeds; C05: training_order; C06: wrong_row_counts, fit_each_variable; C08: methods_respect_inplace, any_sequence_of_calls, in_place_round_trip; C10: error_zero_iff, error_is_the_minimum; C12: fit_each_variable; C13: num_vectors, cumulative_energy, residual_energy, projection_error, svdval_threshold, residual_energy_documented, projection_error_documented, residual_energy_function, projection_error_function, class_and_function_cumulative, class_and_function_residual, class_and_function_projection, class_and_function_svdval, exact_threshold_refuted, no_vectors_refuted, pod_basis_function; C14: singular_values_fixed, refused_request, prefix_of_stored_vectors, before_fit, depends_on_last_request, depends_on_last_fit, assignment_is_forgotten_refuted, failed_fit_keeps_old_entries_refuted, negative_dimension_refuted; C15: residual_energy, projection_error, weighted_error_refuted; C16: orthonormal_vectors, reconstruction, positive_definite_refuted, single_snapshot, single_snapshot_fit; C27: fit_distributes, refit_distributes; C28: fit_is_best, refit_is_best; C29: rhs_is_the_sum, rhs_order, rhs_of_snapshots, jacobian_is_the_sum, jacobian_order, jacobian_defined, jacobian_is_the_derivative; C30: recurrence, prefix, restart; C31: fit_pairs; C32: dimensions_agree, assignment, rejected_assignment_refuted, refit_after_error_refuted, fit_demands_inputs, fit_ignores_inputs, rhs_demands_inputs, rhs_ignores_inputs, trained_iff_entries, solver_lost_refuted; C33: evaluate, jacobian, predict, fit_is_best, refit_is_best, fit_trains, known_interpolated_refuted, discrete_pairs, discrete_given; C34: separate_fits, known_operators_refuted; C38: truncated_solution; C39: nearest_consistent_system, too_few_rows; C46: transformer, pipeline, transformer_multi, pipeline_name_refuted, nested_refuted, pod_basis, pod_basis_dense, pod_basis_new, basis_multi, pod_max_vectors, pod_rank_refuted, solver, solver_if_saved, raising_fit_refuted, model, model_saves, model_training_refuted, model_solver_refuted; C48: discrete_is_galerkin, continuous_is_galerkin, learn_continuous, learn_discrete; C50: frobenius, frobenius_rejects, frobenius_scaling, projection, projection_vector, projection_at_most_one, projection_zero; C51: encode_order, encode_discrete, encode_continuous, encode_fitting, encode_by_columns, projection, exact_in_range, decode_then_encode, project_idempotent, derivatives; C52: fit, fit_discrete, fit_continuous, fit_refuses, fit_parametric, predict, predict_refuses, predict_parametric, short_inputs_refuted, steady_refuted, estimator_ignored, inputs_beyond_the_end; C53: installed_is_best_fit, accepted_is_stable, stable_is_accepted; C54: solver_before_fit, solver_without_returned_fit, solver_after_fit, decoupled_refuted, transformer_after_fit, pod_before_fit, pod_after_fit, model_complete, model_after_fit; C55: copy_of_trained_model, copy_forgets_refuted, copy_dimension_refuted; C56: posterior_of_trained, posterior_of_fit, fit_posterior, fit_ok, fit_raises, stale_posterior_refuted, draws, draws_forget, predict, no_posterior; C57: bad_arguments, total_refuted; C58: regcond, regcond_decoupled, regcond_wide_refuted; C59: galerkin_commutes, galerkin_defined; C61: problem, solutions, jacobian, refuses; C63: tests, reports, shapes, uniform, nonuniform, interpolation, restores, raise, raise_refuted; C65: transformer_equal, transformer_alike, transformer_reflexive, transformer_symmetric, transformer_transitive, transformer_fitted, transformer_reloaded, transformer_symmetry_refuted, multi_alike, multi_reloaded, pod_unfitted, pod_unfitted_refuted; C66: library_accepted, untrained, byrow_refuted, pipeline_refuted, user_accepted, user_verdict, alias_rejected, overwriting_accepted, overwriting_refuted; C67: library_verdict, linear_accepted, scalar_quadratic_refuted, quotients_converge, untrained, accepted_is_checked, accepted_class, files, user_file_refuted; C68: copy_identical, copy_total, copy_refuted, library_accepted, library_verdict, stale_regularizer, plain_accepted, l2_accepted; C69: accepted_is_checked; C70: fit_is_best, fit_keeps_regularizer, same_features, polynomial_instead; C71: after_fit, rhs_is_named_sum, structure, str, learned_refuted; C73: library, raising_fit_refuted; C74: fit_is_best, fit_keeps_regularizer, known_interpolated, fit_forgets, fit_forgets_refuted, fit_wrong_dimension, rhs_wrong_dimension; C75: recovers, recovers_parametric, fit_exact, reproduces.
* `classic`, `functional_extensionality_dep`, `sig_forall_dec`, `sig_not_dec`: C44: never_worse, evaluates_all, grid_winner, all_infeasible, succeeds, bracket, zero_refuted; C49: natural_powers, lift_entries, lift_defined, unlift_lift, all_orders_zero, no_orders, lift_ddts, lift_ddts_natural, quadratic_inverse, quadratic_entries, quadratic_ddts, even_order_refuted, odd_order_refuted, order_zero_refuted; C50: lp_error, lp_error_vector, lp_shapes, lp_order, lp_zero, lp_symmetric, lp_scaling, lp_triangle, lp_triangle_refuted, frobenius_zero, frobenius_symmetric, frobenius_triangle, frobenius_columns, Lp_error, Lp_error_vector, Lp_rejects, Lp_zero, Lp_symmetric, Lp_scaling, Lp_triangle, Lp_one_time_refuted, Lp_unordered_times_refuted; C51: polynomial_lifter, quadratic_lifter, polynomial_lifter_unlifts, quadratic_lifter_unlifts; C52: polynomial_lifter, quadratic_lifter, polynomial_lifter_ddts, quadratic_lifter_ddts; C53: discrete_best, discrete_none, discrete_some, discrete_refuses, continuous_best, continuous_none, continuous_some, continuous_refuses, nan_refuted, zero_data_refuted; C56: discrete_selects, continuous_selects, selected_operators_refuted; C61: unique, stable, accurate, rom; C63: shifted_refuted; C69: polynomial_verdict, quadratic_verdict, affine_times, affine_step, negative_refuted, order_zero_refuted, no_times, no_times_quadratic, one_dimension; C73: project_refuted.

## 4. What is modelled and what is not

Everywhere left out: docstrings, `__str__`/`__repr__`, plotting, warnings, printing and verbose flags,
type errors for arguments of a wildly wrong kind, integer and complex dtypes, arrays with three or more
axes (except as entries of tensors), rounding.

| source (`src/opinf/`) | model | modelled | not modelled |
|---|---|---|---|
| `operators/_nonparametric.py` | `TupleModel`, `OpsModel`, `EntriesModel` | the seven operator classes: set_entries, deletion, apply, jacobian, galerkin, datablock, operator_dimension, ckron, ckron_indices, compress/expand_entries, the lazily precomputed Jacobian tensors | sparse entries of `LinearOperator` beyond their validation |
| `operators/_base.py` | `EntriesModel`, `OpsModel`, `VerifyOpModel` | entries, validation, `==`, `+`, caches, copy, galerkin, save/load (`SaveModel`), verify() | printing and plots of verify() |
| `operators/_polynomial_operator.py` | `PolyOpModel` | all methods | |
| `operators/_affine.py` | `ParamModel` | constructor, set_entries, evaluate, galerkin, datablock, save/load | sparse entries |
| `operators/_interpolate.py` | `ParamModel`, `ItpModel`, `EqModel` | training parameters, set_entries, evaluate, `==`, datablock, copy, galerkin, _from_operators, nonparametric_to_interpolated, save/load | the interpolators themselves (oracle) |
| `models/mono/_base.py`, `_nonparametric.py` | `MonoModel`, `GenModel` (operators of any class), `NamedModel` (c_, A_, ..., str()), `ObjModel` (any operator objects) | operators/solver/dimension setters, fit, refit, operator_matrix, rhs, jacobian, galerkin, copy, `==`, save/load, stack_trajectories, DiscreteModel.fit/predict, SteadyModel, ContinuousModel.rhs/jacobian; `OdeModel`: ContinuousModel.predict | solve_ivp and CubicSpline (parameters), solver options |
| `models/mono/_parametric.py` | `ParaModel`, `ItpModel`, `PGenModel` (operators of any class; calls that return), `PGenLib`, `PObjModel` (operator objects of any kind), `PObjLib`, `PObjLib2`, `PObjRestart` | parametric and interpolatory models: constructor, fit, refit, evaluate, rhs, jacobian, predict, galerkin, _from_models, save/load of interpolatory models | deprecated aliases |
| `lstsq/*.py` | `SolverModel`, `VerifyLsModel` | all solvers: fit, solve, setters, residual, regresidual, regcond, posterior, get_operator_regularizer, save/load, copy(), verify() | LAPACK options (kept, not interpreted) |
| `pre/*.py` | `PreModel`, `ItemModel` (multi[key]), `PreHeap`, `EqModel`, `VerifyModel` | `==`, all transformers, pipelines, joins, inplace, shift(), scale(), save/load, verify() | boolean masks as `locs`, the statistics report |
| `basis/*.py` | `BasisModel`, `EqModel`, `VerifyModel` | `==`, LinearBasis, PODBasis, BasisMulti, pod_basis(), method_of_snapshots, rank criteria, save/load, verify() | boolean masks, sparse weights |
| `ddt/*.py` | `DdtModel`, `DdtInterp` | finite difference formulas, both differencers, ddt_uniform, ddt_nonuniform, ddt, InterpDerivativeEstimator, verify_shapes, verify | interpolation rules (parameters), printing, plots |
| `lift/*.py` | `LiftModel`, `VerifyLiftModel` | both lifters, verify() | printing |
| `post/_errors.py` | `PostModel` | all | |
| `utils/_hdf5.py` | `HdfModel` | file handles, sparse helpers | h5py's own semantics beyond trees |
| `utils/_gridsearch.py` | `GridModel` | gridsearch, stability tests | scipy's optimizers (arbitrary strategies) |
| `utils/_timer.py` | `TimerModel` | limits, alarm, nesting | logging, rebuffering of stdout |
| `utils/_reprojection.py` | `ReprojModel` | all | |
| `utils/_requires.py` | in each model, as the raised `AttributeError` | all | |
| `roms/_base.py`, `_nonparametric.py`, `_parametric.py` | `RomModel`, `RegselModel`, `AnyRomModel` (any parts, calls that raise) | encode, decode, project, fit, predict, fit_regselect_* of non-parametric ROMs | (parametric ROMs have no fit_regselect_*) |
| `roms/_bayes.py` | `BayesModel`, `SaveModel` | OperatorPosterior, BayesianROM: fit, draw_operators, predict, fit_regselect_* | scipy's sampling (arbitrary generator), plots |

## 5. Where the code does not do what one would expect

Found while modelling.  Those marked R are proved (`..._refuted`); the others are notes on behaviour that the
model reproduces or leaves out.

Preprocessing and bases
1. `TransformerPipeline` rejects the documented tuple argument (R).
2. `TransformerPipeline.load` turns a missing name into the string "None"; the other classes turn a name "None" into None (R).
3. `ShiftScaleTransformer(byrow=True)` without scaling: `inverse_transform(locs=...)` raises TypeError (R).
4. `ScaleTransformer.load` turns a scaler array of length 1 into a scalar (R); `scale_` set without `shift_` cannot be saved (R), `shift_` without `scale_` is lost on saving.
5. `ShiftTransformer.transform_ddts` does not check shapes; its reference is kept by reference, so transforming it in place changes the transformer (R).
6. `get_var(-1)` of the multi-variable classes is empty (R).
7. `TransformerMulti` with an untrained pipeline inside cannot be fitted; nested pipelines or joins cannot be loaded (R).
8. `PODBasis`: the residual and projection criteria are strict in the class but not in the documentation (R); `svdval_threshold` above 1 gives no vector at all (R); a negative number of vectors is accepted (R).
9. `reduced_state_dimension` assigned by the user is forgotten by the next fit and by load (R); a failing fit leaves the old entries with the new singular values (R).
10. `PODBasis.from_svd` without right vectors cannot be saved (R); `svdsolver` and an empty name are lost on load (R).
11. `method_of_snapshots` drops the smallest mode even if it is positive (R); `projection_error()` ignores the weights (R).
12. `BasisMulti` decides by size whether an array is reduced; if total n equals total r it splits wrongly (R). It overwrites dimensions without checking.

Operators
13. `PolynomialOperator` inherits a zero Jacobian (R); its copy, load and `+` do not work, and set_entries does not validate.
14. `op + op` broadcasts entries of different shapes (R); sparse entries with NaN are accepted (R).
15. The entries of a `ConstantOperator` with r = 1 applied to integer arrays are truncated (note).
16. galerkin() skips the solve when W'V is only close to the identity (excluded by hypothesis).
17. `AffineOperator(coeffs=p)` forgets its parameter dimension when cleared; load with an integer fails (R).
18. A second `set_entries` of an interpolated operator with unsorted parameters raises (R), and so does load (R).

Models
19. `_InterpModel` subtracts known operators twice (R); parametric models with a known interpolated operator cannot be fitted (R).
20. A rejected assignment to `operators` has already changed `_has_inputs` (R); assigning operators to an intrusive model leaves the solver None (R).
21. refit() after a fit() that raised uses the old data (R).
22. copy() and galerkin() of a trained model forget which operators are inferred (R); load() does too, and the solver (R).
23. `InterpModel`: changing the regularizer and refitting has no effect on the separate models (note).
24. Parametric `fit` with a short list of inputs: zip truncates (note); affine coefficient functions of the wrong length are truncated (note).

Solvers
25. A rejected regularizer is stored before its shape is checked (R).
26. A failing fit of the Tikhonov and total least-squares solvers leaves stale products (R); they then cannot be saved (R). `L2DecoupledSolver` after a raising first fit answers (R).
27. `TikhonovDecoupledSolver`: regresidual of a one-dimensional array raises (R); regularizers of different shapes cannot be saved (R); options are ignored.
28. `L2Solver.regcond` is wrong for fewer rows than columns (R).
29. `TruncatedSVDSolver`: very negative mode counts wrap around; saving before any mode count is known fails (R).

Derivatives, lifting, errors, utilities
30. `UniformFiniteDifferencer` does not compare the number of snapshots with the time domain (R); `ddt_uniform` of integers truncates; a positional integer step is misread (R).
31. `PolynomialLifter(0.5)` has the orders (0,) (R); order 0, and even or odd orders without 1, cannot be inverted everywhere (R).
32. `lp_error` accepts 0 < p < 1, where the triangle inequality fails (R); `Lp_error` with one time gives 0, with unordered times nan (R).
33. gridsearch raises ValueError if the candidates contain 0 (R); a failing search leaves the model refitted with the last candidate.
34. TimedBlock: nested limits, alarms of the caller, TimeoutErrors raised by the body itself (R).
35. Saving with overwrite=True first empties the file: a save that raises has destroyed the old content (R). `OperatorPosterior.save` overwrites by default (R).

Reduced-order models
36. A ROM with a `SteadyModel` cannot be fitted (R). Derivative estimators and fewer input trajectories: trajectories are dropped silently (R).
37. fit_regselect_continuous: nan in the test horizon is not seen as unstable (R); the test horizon is not covered if it is shorter than two steps (R); zero reduced data always raise RuntimeError (R).
38. A loaded `OperatorPosterior` draws numbers instead of rows (R). A raising BayesianROM.fit leaves the old posterior beside the new model (R). After fit_regselect_* the model of a BayesianROM holds the operators of the last draw of the last candidate (R).
39. `verify()` of derivative estimators always compares from the first time on (`la.norm` without axis): the errors reported for backward and central schemes are those of a shifted comparison (R).
40. If an estimate raises inside `verify()`, the estimator keeps the time domain of the test, and an `InterpDerivativeEstimator` loses its new time domain (R).
41. `InterpDerivativeEstimator` with an interpolator class (not a name) interpolates along the wrong axis (R).
42. `galerkin()` of an interpolated operator made with the default interpolator class raises ValueError if the training parameters are not increasing: the object remembers CubicSpline, and only the default sorts them (R).
43. `ShiftScaleTransformer.__eq__` returns after the options if the left operand is untrained: an untrained transformer whose dimension is set equals every transformer with its options, but not conversely (R). A transformer with `scale_` set and `shift_` not is not equal to itself (the comparison of `shift_` with None fails).
44. Only ShiftScaleTransformer defines `==`; a TransformerMulti with any other member differs from its reloaded copy.
45. `LinearBasis.__eq__` compares weights with `np.allclose` only: it is neither symmetric nor transitive, equal bases may compress differently, and comparing a vector of weights with a matrix of weights raises (R).
46. Unfitted PODBasis objects are equal whatever their rank criterion and solver (R).
47. `==` of interpolated operators does not compare the interpolators; after an assignment of entries that raised, an operator equals one that evaluates differently (R).
48. `verify()` of a fitted `ShiftScaleTransformer(byrow=True)` without scaling raises TypeError: `inverse_transform` with `locs` indexes `shift_`, which is None (R).
49. `verify()` of a pipeline around a `TransformerMulti` with variables of different sizes raises ValueError: the pipeline passes `locs` on (R).
50. `verify()` of transformers never compares the states with what they were before the first call, so a `transform(states, inplace=False)` that overwrites `states` and returns a copy is accepted (R).
51. `verify()` of a correct quadratic operator raises VerificationError if the random point is close to zero: the relative error of the quotient is |h/2x| and h >= 1e-10 (R).
52. `verify()` of a PolynomialOperator always raises VerificationError: `operator_dimension` and `datablock` are no static methods (R).
53. `verify()` of an operator raises FileExistsError if `_operatorverification.h5` exists, and then deletes it: the finally clause removes a file it did not write (R).
54. `verify()` of an affine operator raises ValueError as long as `parameter_dimension` is None, even with a test parameter (R).
55. `copy()` of a TikhonovSolver, TikhonovDecoupledSolver or TotalLeastSquaresSolver whose `fit()` raised after storing the data raises AttributeError (R).
56. `verify()` of a trained solver deletes a file called `_solververification.h5` (R).
57. `verify()` of a PolynomialLifter without the order 1 raises VerificationError for any negative state, also for odd orders, where `unlift` gives nan (R).
58. `verify()` of a PolynomialLifter with the order 0 raises ValueError if a state is zero: `lift_ddts` computes 0 * inf (R).
59. `galerkin()` of an affine operator returns one whose `parameter_dimension` is None, so the projected operator accepts parameters of another size (C64_affine_projected).
60. If a known linear operator is given before a linear one to be learned, `model.A_` is the known one and the learned one has no name (R).
61. If the class of an operator does not define `==`, `model.copy() == model` is false: Python then compares identities (R).
62. `model.state_dimension = r` raises AttributeError if an operator derives from OperatorTemplate only, since `entries` is asked of every operator; the message then names `entries`, not the dimension (R).
63. `project()` of a ROM with a lifter is not a projection: with QuadraticLifter and the basis vector (3/5, 4/5), `project(project(q))` differs from `project(q)` (R).
64. `fit()` that raises after the transformer was fitted (for instance because `lhs` has the wrong shape) leaves the new transformer with the old basis and model, so that predictions change without an error (R).
65. A parametric operator with given entries and a function for its coefficients has no parameter dimension, takes that of the first `fit()` and keeps it: a second `fit()` of the same model with parameters of another dimension raises DimensionalityError although a new model accepts the same data (R).
66. `multi[-1]` is the last transformer (or basis) but `get_var(-1)` is empty and `get_var(-2)` is the last variable (R).
67. Default names "variable i" are not checked against chosen ones: with `[ShiftTransformer(..., name="variable 1"), None]` the key "variable 1" gives variable 0, and variable 1 cannot be reached by its name (R).

## 6. Wrong programs

`seeded/LOG.jsonl` records deliberate mistakes made in scratch copies of the model, one per line: the definition,
the edit, the claim it breaks, the property theorems that no longer hold, and the theorems tightened because they
had survived.  Property theorems are found to have failed when, after replacing every proof that no longer goes
through by an assumption, `Print Assumptions` lists such an assumption for them.

## Known gap found by seeded faults

No theorem constrains the inputs returned by `NonuniformFiniteDifferencer.estimate` (`nfd_estimate` in DdtModel.v): an edit that drops them still builds. C42 covers the uniform differencer only and C43 the functions `ddt_uniform`, `ddt_nonuniform` and `ddt`.
