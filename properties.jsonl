{"id": "C01", "title": "Shift/scale transformers invert exactly", "statement": "For ShiftTransformer, ScaleTransformer, ShiftScaleTransformer (every centering/scaling/byrow combination) and NullTransformer, once trained with a nonzero scaling, inverse_transform(transform(Q)) returns Q and transform(inverse_transform(Y)) returns Y, in exact arithmetic, and the number of snapshots is unchanged.", "quantifier": "every state dimension, every number of snapshots, every training set for which the fitted scaling is nonzero, every snapshot matrix with the trained state dimension, every option combination", "why_tests_cant": "tests use a few random 2-D arrays; the claim ranges over all matrices and all shift/scale values", "anchors": ["src/opinf/pre/_shiftscale.py: ShiftTransformer, ScaleTransformer, ShiftScaleTransformer", "src/opinf/pre/_multi.py: NullTransformer"]}
{"id": "C02", "title": "Inverse transform at selected locations", "statement": "inverse_transform(Y[locs], locs=locs) equals inverse_transform(Y)[locs] for every transformer that accepts locs; a Y whose row count differs from locs is rejected with ValueError.", "quantifier": "every trained transformer, every snapshot matrix, every list of in-range row indices (repeats allowed)", "why_tests_cant": "the set of index selections is unbounded and interacts with each centering/byrow branch", "anchors": ["src/opinf/pre/_base.py: TransformerTemplate._check_locs", "src/opinf/pre/_shiftscale.py: inverse_transform", "src/opinf/pre/_multi.py: TransformerMulti.inverse_transform"]}
{"id": "C03", "title": "Fitted scalings have the documented statistics", "statement": "After fit_transform the training snapshots have the documented statistics: centered data have zero row means; 'standard' gives zero mean and unit standard deviation; 'minmax' gives minimum 0 and maximum 1; 'minmaxsym' gives minimum -1 and maximum 1; 'maxabs' gives maximum absolute value 1; 'maxabssym' gives mean 0 and maximum absolute value 1; 'maxnorm' gives maximum column norm 1; 'maxnormsym' gives mean 0 and maximum column norm 1; with byrow=True each row has the property.", "quantifier": "every training matrix that is not degenerate (fitted spread nonzero), both byrow values, both centering values", "why_tests_cant": "an order statistic over an arbitrary matrix; sampled matrices cannot settle all signs and ties", "anchors": ["src/opinf/pre/_shiftscale.py: ShiftScaleTransformer.fit_transform"]}
{"id": "C04", "title": "transform_ddts is the derivative of transform", "statement": "For every transformer t, every Q, D and scalar h: t.transform(Q + h*D) = t.transform(Q) + h*t.transform_ddts(D). Hence transformed derivatives are the derivatives of the transformed states.", "quantifier": "all transformers including pipelines and multi-variable transformers, all states, derivatives and steps", "why_tests_cant": "an identity over all real matrices", "anchors": ["src/opinf/pre/_shiftscale.py: transform_ddts", "src/opinf/pre/_multi.py: TransformerPipeline.transform_ddts, TransformerMulti.transform_ddts"]}
{"id": "C05", "title": "Pipelines compose and invert in order", "statement": "TransformerPipeline([t1,...,tm]).transform applies t1 first and tm last, its inverse_transform undoes them in the opposite order (with or without locs), so the pipeline round-trips whenever each member does; each member is trained on the output of the members before it.", "quantifier": "every list of transformers of any length and every snapshot matrix", "why_tests_cant": "length of the list is unbounded and the members are arbitrary user classes", "anchors": ["src/opinf/pre/_multi.py: TransformerPipeline"]}
{"id": "C06", "title": "Multi-variable transformers act variable by variable", "statement": "TransformerMulti applies the i-th transformer to exactly the i-th block of rows: get_var(i, transform(Q)) = transformer_i.transform(get_var(i, Q)); blocks are disjoint, in order and cover all rows; concatenating split(Q) gives back Q; the inverse (with or without locs) and transform_ddts act the same way; wrong row counts are rejected with ValueError.", "quantifier": "every list of variable sizes (equal or not), every snapshot matrix, every variable index", "why_tests_cant": "arbitrary numbers and sizes of variables", "anchors": ["src/opinf/pre/_multi.py: TransformerMulti"]}
{"id": "C07", "title": "Standalone shift and scale functions invert", "statement": "shift(Q) returns the data with zero row means together with the mean; shift(Y, -shift_by) restores Q; scale(Q, scale_to, scale_from) is affine, maps scale_from onto scale_to endpoint by endpoint and scale(scale(Q,to,from),from,to) restores Q; without scale_from the output minimum and maximum are exactly scale_to.", "quantifier": "every matrix, every pair of intervals with distinct endpoints", "why_tests_cant": "an identity over all real matrices and intervals", "anchors": ["src/opinf/pre/_shiftscale.py: shift, scale"]}
{"id": "C08", "title": "inplace=False never changes the caller's array", "statement": "transform/inverse_transform/fit_transform with inplace=False leave every array that existed before the call unchanged; with inplace=True the returned array is the argument itself and it holds the value the inplace=False call would have returned; no other array changes.", "quantifier": "every sequence of calls on arrays that share or do not share storage", "why_tests_cant": "a statement about all memory states and aliasing patterns", "anchors": ["src/opinf/pre/_shiftscale.py: transform, inverse_transform, fit_transform", "src/opinf/pre/_multi.py"]}
{"id": "C09", "title": "Compressing a decompressed state is the identity", "statement": "For a basis whose entries are orthonormal with respect to the weights (V'WV = I), compress(decompress(q)) = q, project(project(Q)) = project(Q), and the projection is linear. If the basis is not orthonormal the constructor with check_orthogonality warns.", "quantifier": "every basis matrix, weight matrix or weight vector, reduced state and state", "why_tests_cant": "an identity over all matrices", "anchors": ["src/opinf/basis/_linear.py: LinearBasis.compress, decompress", "src/opinf/basis/_base.py: BasisTemplate.project"]}
{"id": "C10", "title": "Projection is the best approximation", "statement": "For an orthonormal basis the residual Q - project(Q) is (weighted-)orthogonal to the basis and no other element of the subspace is closer to Q; projection_error is zero exactly when Q lies in the range of the basis.", "quantifier": "every state, every orthonormal basis, every competitor in the subspace", "why_tests_cant": "an optimality statement over an infinite set of competitors", "anchors": ["src/opinf/basis/_base.py: projection_error", "src/opinf/basis/_linear.py"]}
{"id": "C11", "title": "Decompressing at locations", "statement": "decompress(q, locs) equals decompress(q)[locs] for linear, POD and multi bases.", "quantifier": "every index selection, every reduced state (vector or matrix)", "why_tests_cant": "unbounded index selections", "anchors": ["src/opinf/basis/_linear.py: decompress", "src/opinf/basis/_multi.py: decompress"]}
{"id": "C12", "title": "Multi-variable bases are block diagonal", "statement": "BasisMulti compresses and decompresses each variable with its own basis: the i-th block of compress(Q) is basis_i.compress(block_i(Q)), and dually; the reduced dimensions add up; wrong sizes are rejected; fit() trains each basis on its own block; if every member is orthonormal the whole round-trips. (Decompressing is false, and refuted, when some basis is wider than tall and the total sizes agree.)", "quantifier": "every list of bases and every state", "why_tests_cant": "arbitrary numbers of variables", "anchors": ["src/opinf/basis/_multi.py: BasisMulti"]}
{"id": "C13", "title": "POD rank selection is the documented minimum", "statement": "With cumulative_energy=kappa PODBasis keeps the smallest r whose cumulative energy is at least kappa; with residual_energy=eps the smallest r whose residual energy is at most eps; with svdval_threshold=eps the number of normalized singular values above eps; with projection_error the smallest r whose relative projection error is at most eps; the functions cumulative_energy, residual_energy and svdval_decay agree with the class. (False, and refuted, for residual_energy, projection_error and svdval_threshold exactly at a hit threshold, where the class is strict, and the class keeps no vector for svdval_threshold > 1.)", "quantifier": "every decreasing list of nonnegative singular values and every threshold, including thresholds hit exactly", "why_tests_cant": "boundary equalities and all spectra; random tests never hit equality", "anchors": ["src/opinf/basis/_pod.py: PODBasis._set_dimension_from_criterion, svdval_decay, cumulative_energy, residual_energy"]}
{"id": "C14", "title": "POD basis stays a prefix of the stored singular vectors", "statement": "Through any sequence of fit, set_dimension and reduced_state_dimension assignments, each returning normally and asking for a nonnegative dimension, the basis entries are the first r columns of the stored left singular vectors, r <= max_num_modes, the energies reported are those of r vectors, svdvals are unchanged by re-dimensioning, and the entries depend only on the last fit and the last dimension request after it (or the last set_dimension() before it). (False, and refuted, after a fit that raises, for negative dimensions, and for an assigned dimension followed by a fit.)", "quantifier": "every operation history", "why_tests_cant": "histories are unbounded", "anchors": ["src/opinf/basis/_pod.py: PODBasis"]}
{"id": "C15", "title": "POD projection error equals the residual energy", "statement": "For the training snapshots the squared relative projection error onto the first r POD modes equals the residual energy sum_{j>r} s_j^2 / sum_j s_j^2, sizes being measured in the weights. (projection_error() measures without weights; for a weighted basis the claim is false of it, and refuted.)", "quantifier": "every snapshot matrix with an (exact) SVD, every r", "why_tests_cant": "an identity over all SVDs", "anchors": ["src/opinf/basis/_pod.py: fit, residual_svdval_energy, projection_error criterion"]}
{"id": "C16", "title": "Method of snapshots returns an orthonormal basis", "statement": "method_of_snapshots, given an exact symmetric eigendecomposition of the (weighted) Gramian, returns positive singular values in decreasing order, weight-orthonormal left vectors, and factors whose misfit is the sum of the dropped eigenvalues, so that they reconstruct the snapshots if only zero eigenvalues are dropped. (With all eigenvalues positive the smallest is always dropped and reconstruction is false: refuted.)", "quantifier": "every snapshot matrix, threshold and symmetric weight", "why_tests_cant": "an algebraic identity over all inputs", "anchors": ["src/opinf/basis/_pod.py: method_of_snapshots"]}
{"id": "C17", "title": "Compressed Kronecker products enumerate each monomial once", "statement": "For quadratic, cubic and quartic operators, ckron(q) lists, for every non-increasing index tuple in lexicographic order, the product of the corresponding entries; it equals prod(q[ckron_indices(r)]) and has operator_dimension(r) entries, which is the number of distinct monomials.", "quantifier": "every state dimension r and every state vector", "why_tests_cant": "all r; tests check a handful of r", "anchors": ["src/opinf/operators/_nonparametric.py: QuadraticOperator.ckron, ckron_indices, operator_dimension; CubicOperator; QuarticOperator"]}
{"id": "C18", "title": "compress_entries preserves the operator", "statement": "For every full operator matrix, compress_entries(H) @ ckron(q) = H @ (q (x) q [(x) q [(x) q]]) for all q; a matrix whose column count is not a perfect power is rejected.", "quantifier": "every r, every number of rows, every matrix and every q; degrees 2, 3, 4", "why_tests_cant": "polynomial identity in unboundedly many variables", "anchors": ["src/opinf/operators/_nonparametric.py: compress_entries"]}
{"id": "C19", "title": "expand_entries is a symmetric right inverse", "statement": "expand_entries(Hc) @ kron(q,...) = Hc @ ckron(q) for all q; compress_entries(expand_entries(Hc)) = Hc; expand_entries(Hc) is invariant under permutations of the Kronecker indices; expand_entries(compress_entries(H)) is the symmetrization of H; an inadmissible column count is rejected with ValueError.", "quantifier": "every r, every row count, every matrix and every q; degrees 2, 3, 4", "why_tests_cant": "all r and all matrices", "anchors": ["src/opinf/operators/_nonparametric.py: expand_entries, CubicOperator._rfromcompressed, QuarticOperator._rfromcompressed"]}
{"id": "C20", "title": "Operator Jacobians are the derivatives of apply", "statement": "For every operator with a jacobian method, the directional derivative of q -> apply(q,u) at q in direction d exists and equals jacobian(q,u) @ d.", "quantifier": "every operator matrix, state, input and direction; constant, linear, quadratic, cubic, quartic, input, state-input and general polynomial operators", "why_tests_cant": "a statement about limits at every point", "anchors": ["src/opinf/operators/_nonparametric.py: jacobian", "src/opinf/operators/_polynomial_operator.py", "src/opinf/operators/_base.py: OpInfOperator.jacobian"]}
{"id": "C21", "title": "Data blocks reproduce apply column by column", "statement": "For every operator, entries @ datablock(Q, U) has as its j-th column apply(Q[:,j], U[:,j]); datablock has exactly operator_dimension(r, m) rows; apply on a matrix of states equals apply on each column.", "quantifier": "every r, m, k, every entries matrix and all states/inputs", "why_tests_cant": "identity over all inputs; the regression is built on it", "anchors": ["src/opinf/operators/_nonparametric.py: datablock, apply, operator_dimension", "src/opinf/operators/_polynomial_operator.py: datablock, apply"]}
{"id": "C22", "title": "Galerkin projection commutes with apply", "statement": "op.galerkin(V, W).apply(qhat, u) = (W'V)^{-1} W' op.apply(V qhat, u) for all qhat, u; with W omitted and V orthonormal it is V' op.apply(V qhat, u).", "quantifier": "every operator type, every full-order matrix, every basis pair with invertible W'V, every reduced state", "why_tests_cant": "identity over all operators and states", "anchors": ["src/opinf/operators/_base.py: OpInfOperator._galerkin", "src/opinf/operators/_nonparametric.py: galerkin"]}
{"id": "C23", "title": "Polynomial operators agree with the dedicated classes", "statement": "PolynomialOperator(p).datablock lists every monomial of degree p exactly once and has operator_dimension(r,p) = C(r+p-1,p) rows; for p = 0..4 it agrees with the Constant, Linear, Quadratic, Cubic and Quartic operators, so equal entries give equal apply.", "quantifier": "every r, every p, every state", "why_tests_cant": "unbounded p and r", "anchors": ["src/opinf/operators/_polynomial_operator.py: PolynomialOperator.exp_p, keptIndices_p, operator_dimension"]}
{"id": "C24", "title": "Affine operators evaluate and regress consistently", "statement": "AffineOperator.evaluate(mu) has entries sum_i theta_i(mu) A_i, is linear in the theta's, and [A_1 ... A_p] @ datablock(mus, Qs, Us) lists evaluate(mu_j).apply(q) over all parameters and snapshots in order; operator_dimension equals the number of rows of that block; galerkin commutes with evaluate.", "quantifier": "every number of terms, every coefficient function, every list of parameters and snapshots", "why_tests_cant": "unbounded sizes and arbitrary user coefficient functions", "anchors": ["src/opinf/operators/_affine.py"]}
{"id": "C25", "title": "Interpolated operators decouple over training parameters", "statement": "InterpOperator data blocks are block diagonal, so the regression with several training parameters is the collection of the separate regressions; evaluate at a training parameter returns the entries stored for it whenever the interpolator interpolates; the pairing of parameters and entries is kept when the parameters are sorted.", "quantifier": "every list of distinct training parameters in any order, every entries list, every interpolator that reproduces its nodes", "why_tests_cant": "arbitrary interpolators and orders", "anchors": ["src/opinf/operators/_interpolate.py"]}
{"id": "C26", "title": "Operator entries are validated before use", "statement": "set_entries accepts exactly finite arrays of an admissible shape; after a failed set_entries the operator keeps its previous entries; apply/jacobian/galerkin before entries are set raise AttributeError; addition adds entries and rejects different types; two operators are equal exactly when type and entries agree.", "quantifier": "every call sequence", "why_tests_cant": "histories are unbounded", "anchors": ["src/opinf/operators/_base.py: OpInfOperator", "src/opinf/operators/_nonparametric.py: set_entries"]}
{"id": "C27", "title": "operator_matrix and extraction are inverse", "statement": "Fitting distributes the columns of the solved operator matrix to the operators without loss, overlap or reordering: re-assembling them gives the solved matrix, and each operator receives operator_dimension(r,m) columns.", "quantifier": "every list of operators (any types and order), every r, m and solved matrix", "why_tests_cant": "any number and order of operators", "anchors": ["src/opinf/models/mono/_nonparametric.py: _assemble_data_matrix, _extract_operators, operator_matrix"]}
{"id": "C28", "title": "Fitting minimises the model residual", "statement": "After model.fit(states, ddts, inputs) with a least-squares solver, the fitted operators minimise sum_j ||rhs(q_j,u_j) - ddts_j||^2 (plus the documented penalty) over all values of the learnable operators, where known operators keep their given entries and are part of rhs.", "quantifier": "every operator list with known and unknown operators, all data, all competitors", "why_tests_cant": "optimality over an infinite set of competitors and all data sets", "anchors": ["src/opinf/models/mono/_nonparametric.py: fit, _process_fit_arguments, rhs", "src/opinf/lstsq/_base.py: PlainSolver", "src/opinf/lstsq/_tikhonov.py: L2Solver"]}
{"id": "C29", "title": "Right-hand side and Jacobian are sums over operators", "statement": "rhs is the sum of operator applications, jacobian is the sum of operator Jacobians and is the derivative of rhs; the sums do not depend on the order of the operators.", "quantifier": "every operator list, state and input", "why_tests_cant": "all states; limits", "anchors": ["src/opinf/models/mono/_nonparametric.py: rhs, jacobian"]}
{"id": "C30", "title": "Discrete prediction follows the recurrence", "statement": "DiscreteModel.predict(q0, niters, inputs) returns niters columns, the first is q0 and column j+1 is rhs(column j, input j); a shorter prediction is a prefix of a longer one; restarting from an intermediate column with the remaining inputs continues the trajectory; invalid shapes raise and nothing is returned.", "quantifier": "every model, initial state, horizon and input sequence", "why_tests_cant": "unbounded horizon", "anchors": ["src/opinf/models/mono/_nonparametric.py: DiscreteModel.predict"]}
{"id": "C31", "title": "Trajectory stacking makes exactly the successive pairs", "statement": "stack_trajectories and DiscreteModel.fit(nextstates=None) pair each snapshot with its successor inside the same trajectory, never across trajectories, keep the inputs aligned with the earlier state of each pair, and drop only the last snapshot of each trajectory.", "quantifier": "every list of trajectories of any lengths, with or without inputs", "why_tests_cant": "arbitrary numbers and lengths of trajectories", "anchors": ["src/opinf/models/mono/_nonparametric.py: DiscreteModel.stack_trajectories, fit"]}
{"id": "C32", "title": "Model construction keeps dimensions consistent", "statement": "Whatever sequence of operators, entries and fits a model goes through, all operators with entries share the model's state dimension and input dimension, duplicates of a non-parametric type are rejected, and input arguments are demanded exactly when some operator takes inputs. (Excluded, because false and refuted: a rejected assignment of operators, which may change whether inputs are expected; refit() after a raising fit(), which uses the data of the fit before.)", "quantifier": "every history of assignments and fits", "why_tests_cant": "histories are unbounded", "anchors": ["src/opinf/models/mono/_base.py", "src/opinf/models/mono/_nonparametric.py: _check_operator_types_unique"]}
{"id": "C33", "title": "Parametric models evaluate to their non-parametric counterpart", "statement": "ParametricModel.rhs(mu, q, u) = evaluate(mu).rhs(q, u) and likewise for jacobian and predict; the parametric regression is the stack of the per-parameter regressions, so the fitted operators (affine, interpolated and fixed) minimise the total residual over all parameters plus the penalty, and refit() does so for changed regularizers. (False, and refuted: a model with a known interpolated operator can be fitted.)", "quantifier": "every list of parametric and non-parametric operators, every parameter set and data", "why_tests_cant": "arbitrary numbers of parameters and operators", "anchors": ["src/opinf/models/mono/_parametric.py: _ParametricModel"]}
{"id": "C34", "title": "Interpolatory models equal separate fits", "statement": "InterpModel.fit over s parameters gives at each training parameter the operators a separate model would learn from that parameter's data alone. (False, and refuted: also when some operators are known. They are subtracted from the data twice.)", "quantifier": "every data set list, every operator list", "why_tests_cant": "arbitrary numbers of parameters", "anchors": ["src/opinf/models/mono/_parametric.py: _InterpModel._fit_solver"]}
{"id": "C35", "title": "Least-squares solvers solve their stated problem", "statement": "PlainSolver, L2Solver, L2SolverDecoupled, TikhonovSolver and TikhonovSolverDecoupled return an operator matrix that satisfies the normal equations of, and globally minimises, the documented (regularised) least-squares objective; with positive regularization the minimiser is unique; decoupled solvers with equal regularizers agree with the coupled ones.", "quantifier": "every data matrix of any shape and rank, every right-hand side, every regularization; all competitors", "why_tests_cant": "optimality over an infinite set", "anchors": ["src/opinf/lstsq/_base.py: PlainSolver", "src/opinf/lstsq/_tikhonov.py: L2Solver, L2DecoupledSolver, TikhonovSolver, TikhonovDecoupledSolver"]}
{"id": "C36", "title": "Reported residuals are the objective values", "statement": "residual and regresidual return, per row, the squared data misfit and the full regularised objective of the given operator matrix, are nonnegative, and the solution's regresidual is no larger than that of any other matrix.", "quantifier": "every solver state and every candidate", "why_tests_cant": "all candidates", "anchors": ["src/opinf/lstsq/_base.py: residual", "src/opinf/lstsq/_tikhonov.py: regresidual"]}
{"id": "C37", "title": "Per-operator regularizers penalise the right columns", "statement": "get_operator_regularizer(operators, lambdas, r, m) is diagonal, has as many entries as the operators have columns in total, and the penalty it induces is sum_i lambda_i^2 ||O_i||^2 over the blocks of the operator matrix, in the order used by extraction; affine operators are repeated per term; wrong counts raise.", "quantifier": "every operator list, r, m and regularization list", "why_tests_cant": "arbitrary operator lists", "anchors": ["src/opinf/lstsq/_tikhonov.py: TikhonovSolver.get_operator_regularizer", "src/opinf/lstsq/_base.py: lstsq_size"]}
{"id": "C38", "title": "Truncated SVD solver solves the truncated problem", "statement": "TruncatedSVDSolver with r' modes returns the minimum-norm least-squares solution of the problem whose data matrix is the best rank-r' approximation; with all modes it equals the pseudo-inverse solution; assigning num_svdmodes after fitting raises ValueError beyond the available modes, fit clips an earlier assignment to them, and negative numbers count from the end.", "quantifier": "every SVD, every number of modes", "why_tests_cant": "all spectra and counts", "anchors": ["src/opinf/lstsq/_tsvd.py"]}
{"id": "C39", "title": "Total least squares solves a nearby consistent system", "statement": "TotalLeastSquaresSolver returns O with (D+E) O' = Z'+F for the perturbation [E F] built from the trailing singular triplets of [D Z'].", "quantifier": "every data set whose trailing right block is invertible", "why_tests_cant": "an identity over all SVDs", "anchors": ["src/opinf/lstsq/_total.py"]}
{"id": "C40", "title": "Failed regularizer assignments change nothing", "statement": "Assigning a regularizer of invalid value or type raises and leaves the solver exactly as before, and so does any invalid assignment before fit(). (For a wrong shape after fit() the claim is false of the code and refuted: the value is kept.)", "quantifier": "every solver history", "why_tests_cant": "histories and invalid values are unbounded", "anchors": ["src/opinf/lstsq/_tikhonov.py: regularizer setters"]}
{"id": "C41", "title": "Finite differences are exact on polynomials", "statement": "Every scheme fwd1..fwd6, bwd1..bwd6, ctr2, ctr4, ctr6 is exact on all polynomials of degree at most its order, at every retained time, for every step size, and returns the states, inputs at exactly those times; it is not exact at the next degree.", "quantifier": "every polynomial, every nonzero step, every number of snapshots, every state dimension", "why_tests_cant": "all polynomials and all lengths; off-by-one column selections", "anchors": ["src/opinf/ddt/_finite_difference.py: _finite_difference, fwd1..ctr6"]}
{"id": "C42", "title": "Uniform differencer keeps states, inputs and derivatives aligned", "statement": "UniformFiniteDifferencer.estimate returns states that are the columns selected by mask(), derivatives estimated at those columns and inputs for those columns; too-short data raise.", "quantifier": "every scheme, every length, every input", "why_tests_cant": "all lengths", "anchors": ["src/opinf/ddt/_finite_difference.py: UniformFiniteDifferencer"]}
{"id": "C43", "title": "ddt_uniform and ddt_nonuniform estimate every snapshot", "statement": "ddt_uniform(order 2,4,6) returns a derivative for every column, exact on polynomials up to the order including at both ends; ddt_nonuniform is exact on quadratics for any increasing times; ddt dispatches on its arguments and rejects ambiguous ones.", "quantifier": "every polynomial, step / time grid, number of snapshots at least the stencil width", "why_tests_cant": "all grids and lengths", "anchors": ["src/opinf/ddt/_finite_difference.py: ddt_uniform, ddt_nonuniform, ddt"]}
{"id": "C44", "title": "Grid search returns a feasible minimiser", "statement": "gridsearch evaluates every candidate, never returns a point worse than the best candidate, raises RuntimeError when every candidate is infeasible, returns when some candidate is feasible and the candidates are positive, and refines in the bracket of neighbouring candidates when there is one parameter. The stability tests accept exactly the finite solutions of the right length within their bound. (False, and refuted: with 0 among the candidates it may raise ValueError although all are feasible.)", "quantifier": "every objective function, every candidate list (any order, duplicates), any optimizer behaviour", "why_tests_cant": "arbitrary objectives; the optimizer is an oracle", "anchors": ["src/opinf/utils/_gridsearch.py: gridsearch"]}
{"id": "C45", "title": "Saving never clobbers without permission", "statement": "Saving to an existing path with overwrite=False (the default) raises FileExistsError and leaves the file untouched, over any history of saves that return, raise or are killed; no other file is touched; what a returning save leaves depends on the object only. Loading raises FileNotFoundError or LoadfileFormatError. (False, and refuted: OperatorPosterior overwrites by default; with overwrite=True a save that raises or is killed destroys the previous contents.)", "quantifier": "every file-system state and crash point", "why_tests_cant": "crash points", "anchors": ["src/opinf/utils/_hdf5.py: hdf5_savehandle"]}
{"id": "C46", "title": "Saved objects load back equal", "statement": "For transformers, bases, operators, solvers, models and posteriors, an object that was saved loads back equal (same class, parameters and behaviour), in every reachable state. (False, and refuted: scalers of length one, names that are empty or None, nested pipelines, the SVD solver and assigned rank of a POD basis, affine operators with integer coefficients, default-interpolated operators with unsorted parameters, and the solver of a model do not come back, so that a loaded trained model ignores fit(); some solvers, transformers and bases cannot be saved.)", "quantifier": "every object state reachable through the API", "why_tests_cant": "arbitrary object states", "anchors": ["src/opinf/pre/_shiftscale.py: save, load", "src/opinf/pre/_multi.py", "src/opinf/basis/_linear.py", "src/opinf/basis/_pod.py", "src/opinf/operators/_base.py", "src/opinf/lstsq/_tikhonov.py", "src/opinf/models/mono/_nonparametric.py"]}
{"id": "C47", "title": "Timed blocks time out exactly when they should", "statement": "TimedBlock stops its body with TimeoutError exactly when the body runs past the limit, cancels its alarm on every exit, never ends the process, and a block without limit changes nothing. (False, and refuted: an inner block with a limit switches off the outer limit; a handler or alarm of the caller is lost; a TimeoutError of the body itself is reported as a time-out; a body that catches everything escapes the limit.)", "quantifier": "every interleaving of entries, exits, exceptions and alarms", "why_tests_cant": "schedules", "anchors": ["src/opinf/utils/_timer.py: TimedBlock"]}
{"id": "C48", "title": "Re-projection recovers the intrusive reduced model", "statement": "Data produced by re-projection of a full-order polynomial model are exactly a trajectory of the Galerkin reduced model (discrete) or exactly its right-hand sides (continuous), so the regression problem built on them is solved exactly by the Galerkin operators: the unregularized fit has residual zero, and returns the Galerkin operators whenever the data matrix has independent columns.", "quantifier": "every full-order model, basis, initial condition and length", "why_tests_cant": "unbounded trajectories", "anchors": ["src/opinf/utils/_reprojection.py"]}
{"id": "C49", "title": "Lifting is invertible and consistent with the chain rule", "statement": "unlift(lift(q)) = q for QuadraticLifter always, and for PolynomialLifter exactly if 1 is among the orders or every entry of q is nonnegative (or the first nonzero order is -1). lift_ddts(q, dq) is the derivative of lift along dq wherever the powers are differentiable. (False, and refuted: odd orders such as 3 do not bring negative states back; order 0 gives nan derivatives at zero states; PolynomialLifter(0.5) is turned into order 0.)", "quantifier": "all states and derivatives (vectors and matrices) with real entries, all lists of real orders", "why_tests_cant": "Tests use random positive states and a few orders; the identity and the derivative are claims about all reals.", "anchors": ["src/opinf/lift/_polynomial.py"]}
{"id": "C50", "title": "Error measures are norms of the difference", "statement": "frobenius_error, lp_error and Lp_error return the Frobenius, columnwise p- and trapezoidal L^p norm of the difference and its quotient by the norm of the truth; the error is zero exactly for equal arguments, symmetric, scales with the data and obeys the triangle inequality for p >= 1; projection_error with an orthonormal basis is the distance to the nearest combination of its columns; mismatched shapes and invalid orders raise. (False, and refuted: the triangle inequality for the accepted orders below one; definiteness of Lp_error with a single time; Lp_error being a number for times out of order.)", "quantifier": "all arrays, all real p > 0 and inf, all ordered times", "why_tests_cant": "norm axioms over all inputs", "anchors": ["src/opinf/post/_errors.py"]}
{"id": "C51", "title": "ROM encode/decode compose the parts", "statement": "ROM.encode is lift, then transform, then compress; decode is decompress, inverse transform, unlift, with absent parts skipped; decode(encode(Q)) equals the projection in transformed space, and equals Q when the transformed state lies in the basis; encoded derivatives are the derivatives of encoded states.", "quantifier": "every subset of parts, every state", "why_tests_cant": "all part combinations and states", "anchors": ["src/opinf/roms/_base.py: encode, decode, project"]}
{"id": "C52", "title": "ROM prediction is the decoded reduced prediction", "statement": "ROM.predict(q0, ...) = decode(model.predict(encode(q0), ...)) and fitting passes the model exactly the encoded states and derivatives of each trajectory, concatenated in order, with inputs aligned. (False, and refuted: a list of inputs shorter than the list of trajectories silently drops trajectories when derivatives are estimated; a ROM around a SteadyModel cannot be fitted at all.)", "quantifier": "every number of trajectories, every lengths, every part combination", "why_tests_cant": "arbitrary trajectories", "anchors": ["src/opinf/roms/_base.py: _process_training_data, _fit_model", "src/opinf/roms/_nonparametric.py"]}
{"id": "C53", "title": "Regularization selection only accepts stable models", "statement": "fit_regselect_discrete and fit_regselect_continuous install the first fit, refitted with a regularization whose mean relative training error is at most that of every candidate whose predictions stay within the stability margin over the training and test horizons; the installed model is itself accepted as stable; RuntimeError is raised if no candidate is. (False, and refuted: for time-continuous models a prediction that is nan in the test horizon is accepted; a test horizon shorter than two mean time steps is not covered; training data that are zero in reduced coordinates make every search fail.)", "quantifier": "every candidate list and every model behaviour", "why_tests_cant": "arbitrary candidates", "anchors": ["src/opinf/roms/_base.py: fit_regselect_continuous, fit_regselect_discrete, _get_stability_limits"]}
{"id": "C54", "title": "Untrained objects refuse to work", "statement": "Methods that require training (of solvers, transformers, bases, operators and models) raise AttributeError before training, whatever else was set on the object, and never silently return a value; pipelines and multi-transformers with an untrained member, and the right-hand side of a model with an operator without entries, raise some exception. After a fit that returned they no longer refuse, whatever is done later. (False, and refuted: L2DecoupledSolver.solve() returns after its only fit has raised.)", "quantifier": "every call order", "why_tests_cant": "histories", "anchors": ["src/opinf/utils/_requires.py", "src/opinf/pre", "src/opinf/basis", "src/opinf/lstsq"]}
{"id": "C55", "title": "Model equality matches operators one to one", "statement": "Two models are equal exactly when they have the same class, dimensions and the same operators up to order; equality is reflexive, symmetric, transitive and invariant under reordering; copies of new and of trained models are equal to the original and trained copies have the same right-hand side. (False and refuted: the copy of a fitted model can be fitted again; the copy keeps a state_dimension set by hand.)", "quantifier": "all operator lists", "why_tests_cant": "all permutations", "anchors": ["src/opinf/models/mono/_base.py: _Model.__eq__"]}
{"id": "C56", "title": "Bayesian reduced-order models sample the Gaussian posterior of the regularised problem", "statement": "The posterior of a fitted model has the regularised least-squares solution as its mean, and the covariance matrix of row i is the inverse of (D'D + G'G)/v, where v is the misfit plus penalty of that row per snapshot of the encoded training data. Each draw_operators(), after any number of earlier draws, samples row i of the operator matrix from distribution i, in row order, and distributes it over the operators to be learned; predict() draws once and predicts with what it drew. A regularization search with N draws tries every grid candidate; the selected one is acceptable (all draws pass the tests and stay stable) and the error of the mean of its predictions is at most that of every acceptable grid candidate; its posterior is installed. (False and refuted: after a raising fit the posterior is still that of the earlier data; after the search the operators of the model are draws for the last candidate tried, not the selected one; nothing can be drawn from a posterior loaded from a file.)", "quantifier": "every trained model, data set, regularization, random generator, sequence of draws, candidate list and number of draws", "why_tests_cant": "identities and optimality over all data, all generators and all candidate lists", "anchors": ["src/opinf/lstsq/_tikhonov.py: posterior", "src/opinf/roms/_bayes.py: OperatorPosterior.rvs, BayesianROM.fit, draw_operators, predict, fit_regselect_discrete, fit_regselect_continuous"]}
{"id": "C57", "title": "A raising fit leaves the solver consistent", "statement": "A call of fit(D, Z) that raises because of its arguments leaves the solver as it was. (When it raises because of the regularizer shape or the number of rows the claim is false of the code and refuted: the data is replaced, what was computed from it is not.)", "quantifier": "every history of assignments and fits, raising or not", "why_tests_cant": "histories with failures in the middle", "anchors": ["src/opinf/lstsq/_base.py: SolverTemplate.fit", "src/opinf/lstsq/_tikhonov.py: TikhonovSolver.fit", "src/opinf/lstsq/_total.py: TotalLeastSquaresSolver.fit"]}
{"id": "C58", "title": "regcond is the condition number of the regularised data matrix", "statement": "L2Solver.regcond() and L2DecoupledSolver.regcond() are the square roots of the ratio between the largest and the smallest value of |D x|^2 + lambda^2 |x|^2 over unit vectors x, when D has at least as many rows as columns (false and refuted otherwise).", "quantifier": "every data matrix and regularizer", "why_tests_cant": "extremal over all vectors", "anchors": ["src/opinf/lstsq/_tikhonov.py: L2Solver.regcond, L2DecoupledSolver.regcond"]}
{"id": "C59", "title": "Galerkin projection of a model commutes with its right-hand side", "statement": "model.galerkin(V, W) is a model of the same class with the same operator types and state dimension r, and (W'V) rhs_reduced(q, u) = W' rhs(V q, u) for every reduced state and input; it exists whenever W'V = I.", "quantifier": "every trained model, basis pair, reduced state and input", "why_tests_cant": "identity over all operators, bases and states", "anchors": ["src/opinf/models/mono/_base.py: _Model.galerkin"]}
{"id": "C60", "title": "Accepted regularizers mean what was given and suit the data", "statement": "The L2 solvers accept exactly None and non-negative numbers (one per row of Z for the decoupled solver); the Tikhonov solvers accept exactly None, non-negative vectors standing for diagonal matrices, and matrices (one per row of Z for the decoupled solver); once data is fitted the matrices must be square of its number of columns and the lists as long as Z has rows, whether the regularizer or the data comes first; an accepted assignment stores that value and changes nothing else.", "quantifier": "every solver state and argument", "why_tests_cant": "all shapes and orders of calls", "anchors": ["src/opinf/lstsq/_tikhonov.py: regularizer setters, _check_regularizer_shape, fit"]}
{"id": "C61", "title": "Predictions of time-continuous models are trajectories of the learned system", "statement": "ContinuousModel.predict(state0, t, input_func) hands the integrator exactly the initial value problem of the learned model: right-hand side = sum of the operators at the input meant by the caller (a function returning numbers or vectors, or an array met at the given times), initial state, first and last time, evaluation times, and for the methods that use one the derivative of that right-hand side as Jacobian. Its solutions are the trajectories of the learned model, there is at most one for a bounded input, and an integrator accurate to eps gives it to within eps. ROM.predict encodes, follows that trajectory and decodes. Arguments of the wrong shape are refused before the integrator is called.", "quantifier": "every trained model, initial state, time domain, input, integrator and interpolation of inputs", "why_tests_cant": "all systems and inputs; uniqueness of solutions of differential equations", "anchors": ["src/opinf/models/mono/_nonparametric.py: ContinuousModel.predict, rhs, jacobian", "src/opinf/models/mono/_parametric.py: ParametricContinuousModel.predict", "src/opinf/roms/_nonparametric.py: ROM.predict"]}
{"id": "C62", "title": "Derivatives by interpolation are derivatives of curves through the data", "statement": "InterpDerivativeEstimator.estimate(states, inputs) returns, for every row, the derivative of the interpolant of that row at the times asked for. Without new_time_domain the states and inputs come back unchanged; with it they are the values of the interpolants at the new times, and states, derivatives and inputs have one column per new time. mask() gives the same states and inputs as estimate(). Data that do not match the time domain are refused. (False, and refuted: an interpolator passed as a class instead of a name acts along the wrong axis; it refuses the data or, when there are as many rows as times, silently gives wrong derivatives.)", "quantifier": "every time domain, state matrix, inputs, new time domain and interpolation rule; rules are arbitrary functions", "why_tests_cant": "tests try a few interpolators on one smooth function; which axis an interpolator uses shows only for particular shapes", "anchors": ["src/opinf/ddt/_interpolation.py:InterpDerivativeEstimator"]}
{"id": "C63", "title": "verify() of derivative estimators measures the errors it reports and leaves the estimator alone", "statement": "verify() compares the estimated derivatives with the true derivatives of the test functions and reports relative errors for each step size; estimates of the wrong shape are a VerificationError; when verify() returns, the estimator has the time domain it had before. (False, and refuted: for schemes whose first estimate is not at the first time, such as backward differences, the estimates are compared with derivatives at shifted times, so the reported errors are wrong for every step size; an exception during the comparison leaves the time domain of the test in the estimator, and loses its new time domain.)", "quantifier": "every estimator (any estimate function), number of points and list of step sizes; every scheme of the library", "why_tests_cant": "the tests only check that verify() runs; a wrong reported error looks like any other small number", "anchors": ["src/opinf/ddt/_base.py:DerivativeEstimatorTemplate.verify", "src/opinf/ddt/_base.py:DerivativeEstimatorTemplate.verify_shapes", "src/opinf/ddt/_interpolation.py:InterpDerivativeEstimator.verify"]}
{"id": "C64", "title": "Galerkin projection of interpolated operators and parametric models; interpolating existing ones", "statement": "galerkin(V, W) of an interpolated operator keeps its training parameters and interpolator class, and at each training parameter it is the projection of the operator there; when the interpolator depends linearly on the data, projecting and evaluating commute at every parameter. galerkin(V, W) of a parametric model, evaluated at a parameter, has the same right-hand side as the projection of the model evaluated at that parameter. Copying or projecting an affine operator keeps its class, coefficient functions and number of terms, and the copy also its parameter dimension. Interpolating existing operators or models (_from_operators, _from_models) gives them back at the training parameters, for the default class in whatever order these are; operators of different classes, misaligned models and untrained ones are refused. (False, and refuted: with the default interpolator class and training parameters that are not increasing, galerkin() raises ValueError although the operator evaluates well.)", "quantifier": "every family of operators, training parameters, interpolator class (any function that meets the data), basis pair, parameter, state and input", "why_tests_cant": "identity over all operators, bases, parameters and interpolators; tests use a few sorted parameters", "anchors": ["src/opinf/operators/_interpolate.py: _InterpOperator.galerkin, _from_operators, nonparametric_to_interpolated", "src/opinf/models/mono/_base.py: _Model.galerkin", "src/opinf/models/mono/_parametric.py: _InterpModel._from_models, set_interpolator"]}
{"id": "C65", "title": "== means interchangeable", "statement": "Two transformers that are equal (==) return the same for every transform, inverse_transform and transform_ddt; two bases that are equal have the same dimensions and decompress alike; equal interpolated operators evaluate, up to the tolerance of the comparison, to the same operators at the training parameters. An object equals itself, its copy and its reloaded copy, and objects with the same options fitted to the same data are equal. (False, and refuted: an untrained ShiftScaleTransformer of known dimension equals every transformer with its options, and == is not symmetric then; a TransformerMulti with a member of another class does not equal its reloaded copy; bases compare their weights with a tolerance, so == is neither symmetric nor transitive for them and equal bases may compress differently; comparing diagonal with full weights raises; unfitted PODBasis objects are equal whatever their criteria; an interpolated operator whose last assignment raised equals one that evaluates differently.)", "quantifier": "all transformers in reachable states, all bases and weights, all interpolated operators, interpolator classes and parameters; all arguments of the methods", "why_tests_cant": "tests compare a handful of objects; that equal objects act alike, and symmetry and transitivity, range over all pairs, triples and arguments", "anchors": ["src/opinf/pre/_shiftscale.py: ShiftScaleTransformer.__eq__", "src/opinf/pre/_multi.py: TransformerMulti.__eq__", "src/opinf/basis/_linear.py: LinearBasis.__eq__", "src/opinf/basis/_multi.py: BasisMulti.__eq__", "src/opinf/operators/_interpolate.py: _InterpOperator.__eq__"]}
{"id": "C66", "title": "verify() accepts what is right, rejects what is wrong, and touches nothing", "statement": "Whatever random states and locations are drawn and whatever the (nonnegative) tolerance: verify() returns for every trained transformer of the library, single, pipeline or multi-variable, and for every orthonormal basis, single or multi-variable, and leaves every array that existed before as it was. (False for two kinds, and refuted: a fitted ShiftScaleTransformer with byrow=True and no scaling makes verify() raise TypeError, and a pipeline around a TransformerMulti with variables of different sizes makes it raise ValueError.) For a transformer class of a user whose methods keep the promise of the inplace flag, verify() either returns or raises VerificationError, and returns exactly if the round trip, the round trip at the drawn locations, and transform_ddts against the differences of the transformed states agree to the documented tolerances. It never accepts a class one of whose methods ignores the inplace flag, in either direction. For a basis of the library it returns exactly if projecting the drawn states twice is projecting them once, up to the tolerance; for the basis class of a user, exactly if moreover the shapes of compressed and decompressed states, single states and located states are as documented and located decompression agrees with full decompression. (That an accepted transformer leaves its argument alone when inplace=False is false, and refuted: overwriting it and returning a copy is accepted.)", "quantifier": "all transformers and bases, all user classes (any functions on memory as methods), all random draws, tolerances and states of memory", "why_tests_cant": "verify() is itself a randomised test of a user class; a test of it sees a few draws and a few faulty classes, but cannot show that no draw rejects a right class or that a class of faults always escapes.", "anchors": ["src/opinf/pre/_base.py: TransformerTemplate.verify, _verify_locs", "src/opinf/pre/_multi.py: TransformerMulti.verify, _verify_locs", "src/opinf/basis/_base.py: BasisTemplate.verify, _verify_locs", "src/opinf/basis/_multi.py: BasisMulti.verify, _verify_locs"]}
{"id": "C67", "title": "verify() of operators tells right from wrong and cleans up", "statement": "verify() of a trained operator of the library returns for every constant, linear, input and state-input operator, whatever is drawn, and leaves the files as they were; for a polynomial operator it returns or raises VerificationError, and returns exactly if difference quotients confirm the Jacobian at the drawn point. For an operator class of a user: if verify() returns, apply() has the right shapes, and jacobian(), galerkin(), copy(), save() and load() agree with apply() at the drawn arrays, to the documented tolerances. verify() changes no file but its temporary one and does not leave that behind. verify() of an affine or interpolated operator returns if evaluate() works. (False, and refuted: a correct quadratic operator is rejected if the drawn point is close to zero; PolynomialOperator is always rejected; a file of the user that happens to be called _operatorverification.h5 is deleted; verify() of an affine operator raises ValueError until evaluate() has been called once, even if a test parameter is passed.)", "quantifier": "all operators and sizes, all user classes (arbitrary functions as methods), all random draws, file systems, parameters and coefficient functions", "why_tests_cant": "verify() is a randomised test itself: which draws reject a correct operator, and that no accepted class has a fault it looks for, are statements about all draws and all classes.", "anchors": ["src/opinf/operators/_base.py: OperatorTemplate.verify, OpInfOperator.verify, ParametricOperatorTemplate.verify", "src/opinf/operators/_polynomial_operator.py: PolynomialOperator"]}
{"id": "C68", "title": "copy() and verify() of least-squares solvers", "statement": "copy() of a solver of the library that has seen any fits and regularizers, the fits having returned, is the same solver. verify() returns for every solver of the library after any calls that returned, provided solve() returns, and leaves the files as they were; after regularizers that were refused it still returns exactly if solve() gives an array of the right shape. For a solver class of a user: if verify() returns, solve() has shape (r, d), and copy(), save() and load() keep the class, the dimensions and the solution, up to the documented tolerances. verify() changes no file but its temporary one and does not leave that behind. (False, and refuted: a solver whose fit() raised may not be copied, copy() raises AttributeError; a file of the user called _solververification.h5 is deleted.)", "quantifier": "all solvers of the library and all histories of fit() and regularizer assignments; all user classes (arbitrary values and functions as methods); all file systems", "why_tests_cant": "ranges over histories, data of any size and arbitrary user classes; a test sees a handful of classes and one file system.", "anchors": ["src/opinf/lstsq/_base.py: SolverTemplate.verify, PlainSolver.copy", "src/opinf/lstsq/_tikhonov.py: L2Solver.copy, TikhonovSolver.copy", "src/opinf/lstsq/_tsvd.py: TruncatedSVDSolver.copy", "src/opinf/lstsq/_total.py: TotalLeastSquaresSolver.copy"]}
{"id": "C69", "title": "verify() of lifters", "statement": "verify() of QuadraticLifter and of a PolynomialLifter with positive integers as orders returns or raises VerificationError, and returns exactly if lift_ddts() of the estimated derivatives is the estimated derivative of the lifted states, up to the tolerance; for states that are affine in time QuadraticLifter passes with every tolerance, zero included, whether the times are evenly spaced or not. Without times it raises ValueError. For a lifter class of a user: if verify() returns, lift() keeps the number of columns, unlift() undoes it for these states, and lift_ddts(), if implemented, agrees with the estimated derivatives, up to the documented tolerances. (False, and refuted: without the order 1 a negative state makes verify() raise VerificationError always; with the order 0 a state that is zero makes it raise ValueError always.)", "quantifier": "all states, times, tolerances and orders; all user classes (arbitrary functions as methods)", "why_tests_cant": "the verdict depends on the states and times passed in; tests pass a few smooth ones with a generous tolerance.", "anchors": ["src/opinf/lift/_base.py: LifterTemplate.verify", "src/opinf/lift/_polynomial.py: QuadraticLifter, PolynomialLifter"]}
{"id": "C70", "title": "Models of user-defined operators learn the least-squares fit", "statement": "A model may be made of operators of any class that derives from OpInfOperator, among them PolynomialOperator of any order. If each class is what its author says, i.e., there are features phi with datablock(Q, U) having the columns phi(q_j, u_j), operator_dimension() their number, and apply(q, u) = E phi(q, u), then after fit() the learned entries minimise the squared misfit of the sum of all operators (known ones included) plus the penalty of the solver, also after refit() with new regularizers; operator_matrix has the learned entries side by side in the order of the operators; rhs() is the sum of all operators. Two models whose operators have the same features and known entries learn the same; in particular a PolynomialOperator of order 0 to 4 can stand for the constant, linear, quadratic, cubic or quartic operator. Two operators of the same type that are both to be learned are rejected, PolynomialOperator having the type of the class of its order.", "quantifier": "every list of operator classes with such features, all known entries, data, solvers and histories of fit(), refit() and regularizer changes", "why_tests_cant": "the space of user-defined classes is infinite and tests exercise only a few", "anchors": ["src/opinf/models/mono/_nonparametric.py: _NonparametricModel.fit", "src/opinf/models/mono/_base.py: _Model", "src/opinf/operators/_base.py: OpInfOperator", "src/opinf/operators/_polynomial_operator.py: PolynomialOperator"]}
{"id": "C71", "title": "Named operators and str() of a model", "statement": "The attributes c_, A_, H_, G_, B_ and N_ of a model are the first of its operators that is constant, linear, quadratic, cubic, input, state-input, and None if there is none; fit() keeps them in place, gives the learned ones entries and leaves the known ones alone; if no class occurs twice and there is no quartic operator, rhs() is the sum of what the six contribute. A model can be made from letters exactly if there is at least one, none occurs twice and all are among c, A, H, G, B, N; its operators are those the letters stand for, in that order, all to be learned, under the attribute of that name. A parametric model evaluated at mu has as named operators the named operators of the parametric model evaluated at mu. The structure line of str(model) tells the classes and the order of the operators and has q and u as often as the operators have degree in the state and the input, and two models print the same exactly if they agree in class, dimensions, operator classes, shapes of the entries and the text of the solver. (False, and refuted: the linear operator that fit() learned is A_. A known one given before it hides it.)", "quantifier": "every model of operators of the library and every history of constructing, setting operators, fitting and refitting; every list of letters; all states and inputs; every parametric model and parameter value", "why_tests_cant": "the number of operator lists and histories is unbounded, and injectivity of a printed form is a statement about all pairs of models", "anchors": ["src/opinf/models/mono/_base.py: _Model", "src/opinf/models/mono/_nonparametric.py: _NonparametricModel", "src/opinf/models/mono/_parametric.py: _ParametricModel", "src/opinf/operators/_base.py: OperatorTemplate", "src/opinf/operators/_nonparametric.py"]}
{"id": "C72", "title": "Models made of operator objects of any class", "statement": "A model can be made from any operator objects, also of classes a user derives from OperatorTemplate: exactly if there is at least one, no two of those to be learned are of one class, and the others agree in state dimension and in input dimension. Whatever functions of state and input the operators are, rhs() is their sum; if an operator raises, rhs() raises that error; if the jacobian() of each operator is the derivative of its apply(), that of the model is the derivative of rhs(); if galerkin() of each operator is its Petrov-Galerkin projection, galerkin() of the model is a model of the same class whose rhs() is the projection of the rhs(). predict() of a discrete model is the recurrence of its rhs(), a shorter prediction is the beginning of a longer one, restarting from any column with the remaining inputs continues the prediction, and it rejects initial states of the wrong length, fewer than one step, and missing, too few or misshapen inputs. == of models is symmetric if == of the operators is; if that is an equivalence, two models are equal exactly if they agree in class and dimensions and their operators can be paired; copy() equals the model if copies of the operators equal them. The operators of the library meet all these conditions. (False, and refuted: copy() of a model always equals the model. Not if the class of an operator does not define ==. False, and refuted: the state dimension a model has can be assigned to it again. It raises AttributeError if an operator has no attribute entries, such as one derived from OperatorTemplate.)", "quantifier": "every collection of operator objects given by its methods, every list of them, all states, inputs, bases, numbers of steps and all pairs of models", "why_tests_cant": "the objects are arbitrary code of a user, so no test suite can contain them; matching of operators has to be right for all pairs of lists", "anchors": ["src/opinf/models/mono/_base.py: _Model", "src/opinf/models/mono/_nonparametric.py: _NonparametricModel, ContinuousModel, DiscreteModel", "src/opinf/operators/_base.py: OperatorTemplate, InputMixin, is_uncalibrated"]}
{"id": "C73", "title": "Reduced-order models made of a transformer, a basis and a model of any class", "statement": "The parts of a ROM may be objects of classes of a user; the constructor keeps them, but drops the derivative estimator if the model is not time-continuous. Whatever they do, encode() returns a value exactly if lifting, transforming and compressing with the parts there are does, and then returns that; a left-hand side is treated as time derivatives if the model is continuous and as states if not; decode() goes the same way back; predict() decodes what the model predicts from the encoded initial state. If each part undoes what it does, decode() undoes encode(); if each part can be redone, project() is idempotent and leaves encode() alone. The first column of a prediction is the projected initial state. fit(), with or without parameters, fits the transformer on the lifted trajectories side by side, the basis on the transformed ones, each only if asked to, and the model on what every trajectory contributes, and changes nothing else; encode() that fits does so too and then encodes with the fitted parts. If fit() raises, the lifter and the estimator are unchanged, a changed transformer or basis is one whose own fit() was called on these data, and a changed model is one whose own fit() raised that error; without refitting, nothing but the model can change. (False, and refuted: project() of a ROM with an orthonormal basis is idempotent. Not with a lifter. False, and refuted: a fit() that raises leaves the predictions alone. The transformer has been refitted by then.)", "quantifier": "every class of transformers, bases and models given by its methods, every lifter and estimator, all states, trajectories and flags, and every exception a part may raise", "why_tests_cant": "the parts are arbitrary code of a user and may raise at any point; tests use the classes of the library on a few arrays", "anchors": ["src/opinf/roms/_base.py: _BaseROM.encode, decode, project, _process_training_data, _fit_model", "src/opinf/roms/_nonparametric.py: ROM", "src/opinf/roms/_parametric.py: ParametricROM"]}
{"id": "C74", "title": "Parametric models made of operators of any class", "statement": "The operators of a parametric model may be nonparametric or parametric, of the library or of classes of a user. If each nonparametric operator is E phi(q, u) and each parametric one E psi(mu)(q, u) as its author says, then after fit() that returns, and after any number of changes of the regularizer followed by refit(), every operator to be learned has a matrix of its size, those given at construction are untouched, rhs(mu, q, u) is the sum of the operators at mu wherever all are defined, and no other matrices have a smaller sum of squared residuals over all training parameters and snapshots, plus the penalty of the regularizer, in any row. At a training parameter the right-hand side is the one whose residuals were summed. fit() does not change the regularizer. Affine operators over any such class with any coefficient functions, interpolated operators over any such class with any interpolation that is linear in the data, and with any that reproduces the data, are of this form. fit() never returns if entries were given for an interpolated operator while others are to be learned. fit() forgets: whatever was fitted before, it gives the model, or the error, that fit() of a new model with the same operators and solver gives, if the parametric operators with given entries know their parameter dimension. (False, and refuted, without that condition: such an operator keeps the dimension of the first data.) fit() never returns for parameters of another dimension than a given operator has, and afterwards rhs() never returns for parameters of another dimension than the training parameters had. The constructor rejects two operators of the same kind that are both to be learned.", "quantifier": "every class of operators, nonparametric or parametric, given by its methods; every number of training parameters and trajectories of every length; all data, all solvers with a regularizer and all histories of fits, refits and regularizers", "why_tests_cant": "classes, coefficient functions and interpolators are arbitrary code of a user; tests use those of the library on a few arrays", "anchors": ["src/opinf/models/mono/_parametric.py: _ParametricModel", "src/opinf/operators/_affine.py: _AffineOperator", "src/opinf/operators/_interpolate.py: _InterpOperator", "src/opinf/operators/_base.py: ParametricOpInfOperator"]}
{"id": "C75", "title": "Exact data are learned exactly; more regularization, smaller operators", "statement": "If some values of the operators to be learned produce the left-hand sides exactly, then after fit(), and after any changes of the regularizer and refits, the sum of the squared residuals in every row is at most the penalty of those values. If that penalty is zero (without regularization, for example), rhs() at every training snapshot, and training parameter, is the left-hand side; if besides the snapshots determine the values, they are learned exactly and rhs() is theirs for every state, input and parameter value. This holds for operators of any class, in models with and without parameters. A discrete model fitted without regularization to a trajectory that its structure can produce predicts all of that trajectory from its first snapshot. With L2Solver a larger regularizer gives residuals at least as large and an operator matrix at most as large, in every row, and residual plus penalty never exceeds the sum of the squared left-hand sides; with TikhonovSolver the same holds for multiples of a matrix.", "quantifier": "all data, all classes of operators, all known operators, all inputs and all values that produce the data; all pairs of regularizers", "why_tests_cant": "tests fit one model to data made by one choice of operators; that every choice is recovered is a statement about all data matrices and regularizers", "anchors": ["src/opinf/models/mono/_nonparametric.py: _NonparametricModel.fit, DiscreteModel.fit, DiscreteModel.predict", "src/opinf/models/mono/_parametric.py: _ParametricModel.fit", "src/opinf/lstsq/_base.py: PlainSolver", "src/opinf/lstsq/_tikhonov.py: L2Solver, TikhonovSolver"]}
{"id": "C76", "title": "Parametric models of any operator objects do at each parameter what their operators do", "statement": "A parametric model may mix parametric and nonparametric operators of any classes, not only of the library. It is made exactly if there is an operator, no two to be learned represent the same kind of operation, the calibrated ones agree in state and input dimension, no two parametric ones disagree in the dimension of the parameter (DimensionalityError), and those without that dimension can be given it; then all of them have it. evaluate() returns a nonparametric model of the matching class made of the evaluated operators, in order. rhs() is the sum of what the operators are at the parameter, jacobian() its derivative, predict() iterates it, and the model returned by galerkin() is its projection, at every parameter at once. If an operator cannot be evaluated, all of these raise what the first such operator raises. == is symmetric if == of the operators is, and equal models have operators that can be paired. If copies of the operators equal the originals and keep their parameter dimension, copy() equals the model.", "quantifier": "all operator classes of both kinds, all lists of operators, all parameters, states, inputs and bases", "why_tests_cant": "the classes are not known when the tests are written; the statements are about every class with the stated behaviour", "anchors": ["src/opinf/models/mono/_parametric.py: _ParametricModel (operators, _synchronize_parameter_dimensions, evaluate, rhs, jacobian, predict)", "src/opinf/models/mono/_base.py: _OpInfModel (operators, galerkin, copy, __eq__)", "src/opinf/operators/_base.py: ParametricOperatorTemplate"]}
{"id": "C77", "title": "Variables are addressed by position and by name", "statement": "TransformerMulti keeps its transformers in the given order and changes nothing but their names and state dimensions: None becomes a NullTransformer, those without a name become \"variable i\", and with variable_sizes each has the given size. It raises ValueError exactly for no transformers, a wrong number of sizes, or a size that differs from one already set, and AttributeError for a member whose size or name cannot be set. multi[key] (transformers and bases) is the first member with that name, or the member at that position, counted from the end if negative; it raises exactly if there is none, TypeError for names and IndexError for numbers. For a name or a number that is not negative, get_var(key) is the variable of multi[key]. Without chosen names each member is reached by its default name. (Refuted: the agreement for negative numbers, and that each member is reached by its own name when a default name equals a chosen one.)", "quantifier": "all lists of transformers and bases, all sizes, names, keys and states", "why_tests_cant": "the number of variables, the names and the keys are unbounded, and names may collide", "anchors": ["src/opinf/pre/_multi.py: TransformerMulti (__init__, __getitem__, variable_names, get_var)", "src/opinf/basis/_multi.py: BasisMulti (__getitem__, get_var)"]}
