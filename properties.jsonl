{"id": "C01", "title": "Slices select exactly the Python indices", "statement": "Indexing a vector or matrix dimension of length n with Slice{start, stop, step} (any of them possibly omitted) selects exactly the index sequence Python's slice(start, stop, step).indices(n) yields, in the same order; every selected index lies in [0, n).", "quantifier": "all lengths n >= 0, all optional start/stop and all nonzero steps representable as int", "why_tests_cant": "infinitely many (length,start,stop,step) combinations; clamping has six sign/overflow regimes", "anchors": ["include/sleipnir/autodiff/slice.hpp: Slice::Slice, Slice::adjust"]}
{"id": "C02", "title": "Integer slice selects one element", "statement": "Slice built from a single integer i selects exactly the element i (or n+i when i is negative), and constructing or adjusting a slice never performs a signed overflow.", "quantifier": "all int indices i and all dimension lengths n with -n <= i < n", "why_tests_cant": "the claim fails only at extreme values (INT_MAX, INT_MIN) that suites do not try", "anchors": ["include/sleipnir/autodiff/slice.hpp: Slice::Slice(int), Slice::adjust"]}
{"id": "C03", "title": "A slice of a slice is the composition of the two slices", "statement": "Element (i,j) of view(rows2, cols2) taken from view V is the element of V at the i-th row selected by rows2 and the j-th column selected by cols2, hence the corresponding element of the underlying matrix; nesting views to any depth never leaves the matrix.", "quantifier": "all matrices, all slices on both axes, any nesting depth", "why_tests_cant": "index arithmetic composes; step products and offsets can only be checked pointwise by tests", "anchors": ["include/sleipnir/autodiff/variable_block.hpp: operator()(Slice,Slice), operator()(Slice,int,Slice,int), operator()(int,int)"]}
{"id": "C04", "title": "Block, segment, row and col address exactly the requested rectangle", "statement": "block(r,c,h,w) of a matrix or of a view has h rows and w columns and its (i,j) element is element (r+i, c+j) of the parent; segment/row/col are the corresponding special cases; requests outside the parent are rejected by an assertion.", "quantifier": "all parents, offsets and sizes", "why_tests_cant": "all shapes and nested offsets", "anchors": ["include/sleipnir/autodiff/variable_matrix.hpp: block, segment, row, col", "include/sleipnir/autodiff/variable_block.hpp: block, segment, row, col"]}
{"id": "C05", "title": "Writing through a view changes exactly the viewed elements", "statement": "Assigning a scalar, a numeric matrix, or another matrix expression to a view updates each viewed element with the corresponding source element (of the value the source had before the assignment) and leaves every other element of the underlying matrix untouched.", "quantifier": "all matrices, views (with any slices) and sources of the same shape", "why_tests_cant": "frame condition over every non-viewed element, plus aliasing between source and destination", "anchors": ["include/sleipnir/autodiff/variable_block.hpp: operator=, set_value"]}
{"id": "C06", "title": "Matrix arithmetic is entrywise/row-by-column arithmetic of the stored variables", "statement": "A+B, A-B, -A, A*B, A*s, A/s, T() have the documented shape and their (i,j) value is the corresponding mathematical matrix expression of the operand values; mismatched shapes are rejected.", "quantifier": "all shapes and all element values", "why_tests_cant": "all shapes; triple loops over runtime sizes", "anchors": ["include/sleipnir/autodiff/variable_matrix.hpp: operator*, operator+, operator-, operator/, T"]}
{"id": "C07", "title": "Compound matrix multiplication equals the product", "statement": "After A *= B the matrix A holds the entries of the product of the previous A with the previous B, also when B is A itself.", "quantifier": "all conforming A and B including aliasing", "why_tests_cant": "aliasing corner only visible for sizes >= 2", "anchors": ["include/sleipnir/autodiff/variable_matrix.hpp: operator*=", "include/sleipnir/autodiff/variable_block.hpp: operator*="]}
{"id": "C08", "title": "block() assembles matrices by concatenation", "statement": "block({{A,B},{C,D},...}) is the matrix whose rows are the row-wise concatenations stacked vertically: every element of every input appears at exactly its offset position and every output element comes from an input; the empty list gives the 0x0 matrix.", "quantifier": "all nested lists of matrices with consistent shapes", "why_tests_cant": "arbitrary list lengths and shapes", "anchors": ["include/sleipnir/autodiff/variable_matrix.hpp: block(std::initializer_list), block(std::vector)"]}
{"id": "C09", "title": "solve(A,B) solves the linear system for small systems", "statement": "For a square A up to 4x4 (the closed-form cases) with nonzero determinant and any B with matching rows, X = solve(A,B) has the shape of the mathematical solution and A X = B.", "quantifier": "all real A with det != 0 and all B", "why_tests_cant": "polynomial identity over 16+ real unknowns", "anchors": ["include/sleipnir/autodiff/variable_matrix.hpp: solve"]}
{"id": "C10", "title": "Iteration and element access are row-major and complete", "statement": "Iterating a matrix or a view visits each element exactly once, in row-major order, consistent with operator()(i,j) and operator[](k).", "quantifier": "all matrices/views and all sizes", "why_tests_cant": "all sizes", "anchors": ["include/sleipnir/autodiff/variable_matrix.hpp: begin, end, operator[]", "include/sleipnir/autodiff/variable_block.hpp: begin, end, operator[]"]}
{"id": "C11", "title": "The pool allocator never hands out a live block", "statement": "Every block returned by the pool is disjoint from every other block currently in use and stays inside memory the pool owns; blocks_in_use equals allocations minus deallocations; freed blocks are reused before new memory is requested.", "quantifier": "all interleavings of allocate and deallocate of one object type", "why_tests_cant": "unbounded histories", "anchors": ["include/sleipnir/util/pool.hpp: PoolResource::allocate, deallocate, blocks_in_use, add_chunk"]}
{"id": "C12", "title": "The pool serves every requested size", "statement": "A block returned for a request of k bytes has at least k bytes that belong to nobody else.", "quantifier": "all histories mixing element types sharing the thread's pool", "why_tests_cant": "depends on which type is allocated first in the process", "anchors": ["include/sleipnir/util/pool.hpp: PoolResource::allocate", "src/util/pool.cpp: global_pool_resource"]}
{"id": "C13", "title": "Variables own their expression graph: no leak, no double free, no use after free", "statement": "Throughout any sequence of creating, copying, moving, assigning and destroying Variables (including those whose graphs share nodes), every node reachable from a live Variable is allocated; a node is freed exactly once, and after the last Variable is gone nothing remains allocated.", "quantifier": "all histories of Variable creation, combination, copy, move, assignment and destruction on acyclic graphs", "why_tests_cant": "unbounded histories and sharing patterns", "anchors": ["include/sleipnir/util/intrusive_shared_ptr.hpp: IntrusiveSharedPtr", "include/sleipnir/autodiff/expression.hpp: inc_ref_count, dec_ref_count"]}
{"id": "C14", "title": "Handle assignment is safe for any source", "statement": "Assigning p = q between expression handles leaves both valid whatever q aliases (p itself, or a handle stored inside the graph p owns).", "quantifier": "all pairs of handles, including handles owned by the object the destination owns", "why_tests_cant": "only a particular ownership pattern reaches the dangerous order of operations", "anchors": ["include/sleipnir/util/intrusive_shared_ptr.hpp: operator=(const IntrusiveSharedPtr&)"]}
{"id": "C15", "title": "Releasing a deep graph needs bounded stack and terminates", "statement": "Destroying the last handle to a graph of any depth terminates and frees exactly the nodes no longer reachable from another live handle.", "quantifier": "all finite acyclic graphs of any depth and sharing", "why_tests_cant": "any depth; any sharing", "anchors": ["include/sleipnir/autodiff/expression.hpp: dec_ref_count"]}
{"id": "C16", "title": "Evaluation order is a topological order of the whole graph", "statement": "For every expression the internal evaluation order contains every node reachable from the root exactly once, with every node before its operands; computing it terminates and leaves no residue that could affect later computations.", "quantifier": "all finite acyclic expression graphs with arbitrary sharing", "why_tests_cant": "all DAG shapes", "anchors": ["include/sleipnir/autodiff/expression_graph.hpp: topological_sort"]}
{"id": "C17", "title": "value() is the mathematical value of the expression", "statement": "Variable::value() returns the value obtained by evaluating the mathematical expression the user wrote on the current values of its decision variables, whatever sharing the graph has.", "quantifier": "all expressions built from the supported operators, all assignments of values", "why_tests_cant": "all expressions and all inputs", "anchors": ["include/sleipnir/autodiff/expression_graph.hpp: update_values", "include/sleipnir/autodiff/variable.hpp: Variable::value"]}
{"id": "C18", "title": "value() is never stale", "statement": "After any interleaving of set_value calls and value() queries on any variables, value() returns the value of the expression for the most recent values of its decision variables.", "quantifier": "all histories of set_value and value calls", "why_tests_cant": "unbounded histories; caching of the sorted graph", "anchors": ["include/sleipnir/autodiff/variable.hpp: set_value, value, update"]}
{"id": "C19", "title": "Simplification preserves the value", "statement": "The simplifications performed while building expressions (dropping zero terms, unit factors, folding constants, pow(x,2) to x*x, ...) never change the value of the expression wherever the expression the user wrote is defined.", "quantifier": "all operators, all operand expressions, all inputs at which the unsimplified expression is defined", "why_tests_cant": "all operand types and values; special values 0, 1, 2, -1", "anchors": ["include/sleipnir/autodiff/expression.hpp: operator*, operator/, operator+, operator-, abs, acos, asin, atan, atan2, cbrt, cos, cosh, erf, exp, hypot, log, log10, max, min, pow, sign, sin, sinh, sqrt, tan, tanh"]}
{"id": "C20", "title": "Simplification agrees with IEEE arithmetic at domain boundaries", "statement": "Building an operation on constant operands gives the same result as the floating-point operation: log(0) is -inf, 0/0 is NaN, pow(0,0) is 1, pow(0,-1) is +inf, 0*inf is NaN.", "quantifier": "all constant operands including zeros, infinities and NaN", "why_tests_cant": "special values", "anchors": ["include/sleipnir/autodiff/expression.hpp: log, log10, pow, operator/, operator*"]}
{"id": "C21", "title": "type() is a sound upper bound on the polynomial degree", "statement": "If type() is CONSTANT the value does not depend on any decision variable; if LINEAR the value is an affine function of the decision variables; if QUADRATIC it is a polynomial of degree at most two.", "quantifier": "all expressions built with the public operators", "why_tests_cant": "semantic claim over all inputs", "anchors": ["include/sleipnir/autodiff/expression.hpp: type", "include/sleipnir/autodiff/variable.hpp: Variable::type"]}
{"id": "C22", "title": "The gradient is the vector of true partial derivatives", "statement": "Gradient(f, wrt).value() returns, at every point where every operation in f is differentiable, exactly the partial derivatives of the mathematical function f denotes, with zeros for variables that do not occur.", "quantifier": "all expressions with any sharing, all points of differentiability, all wrt vectors of distinct variables", "why_tests_cant": "all expressions and points; tests compare finitely many against known formulas", "anchors": ["include/sleipnir/autodiff/expression_graph.hpp: append_triplets", "include/sleipnir/autodiff/gradient.hpp", "include/sleipnir/autodiff/jacobian.hpp: value"]}
{"id": "C23", "title": "Each operator's derivative rule is the derivative of its value rule", "statement": "For every supported operator the derivative contribution propagated to each operand is the partial derivative of the operator's value with respect to that operand, at every interior point of its domain.", "quantifier": "all 28 operators and all real operands in the differentiability domain", "why_tests_cant": "calculus statement over a continuum", "anchors": ["include/sleipnir/autodiff/expression.hpp: grad_l, grad_r of every Expression class"]}
{"id": "C24", "title": "Conventions at kinks are subgradients and agree between both modes", "statement": "At points where abs, max, min, are not differentiable, the derivative used lies between the one-sided derivatives, and the expression-valued derivative evaluates to the same number as the numeric one.", "quantifier": "all real operands", "why_tests_cant": "measure-zero inputs", "anchors": ["include/sleipnir/autodiff/expression.hpp: AbsExpression, MaxExpression, MinExpression, SignExpression"]}
{"id": "C25", "title": "Symbolic gradients evaluate to the numeric gradient", "statement": "Gradient/Jacobian/Hessian get() returns expressions whose value, at every assignment of the variables where the function is defined, equals the corresponding entry of value() at that assignment.", "quantifier": "all expressions, wrt vectors of distinct variables and assignments", "why_tests_cant": "equality of two programs for all inputs", "anchors": ["include/sleipnir/autodiff/variable_matrix.hpp: gradient_tree (VariableMatrix::gradient_tree)", "include/sleipnir/autodiff/jacobian.hpp: get", "include/sleipnir/autodiff/hessian.hpp: get"]}
{"id": "C26", "title": "Computing derivatives leaves the expressions unchanged", "statement": "Computing a gradient, Jacobian or Hessian leaves no temporary data in the expression graph: later evaluations and derivative computations on expressions sharing nodes with it are unaffected.", "quantifier": "all graphs, all sequences of derivative computations", "why_tests_cant": "arbitrary interleavings over shared graphs", "anchors": ["include/sleipnir/autodiff/variable_matrix.hpp: gradient_tree", "include/sleipnir/autodiff/expression_graph.hpp: topological_sort, append_triplets"]}
{"id": "C27", "title": "Jacobian::value is always fresh", "statement": "After any history of set_value on decision variables, Jacobian::value() equals the Jacobian of the function at the current point, although rows of linear functions are computed only once.", "quantifier": "all functions, wrt vectors, histories of updates", "why_tests_cant": "unbounded histories; caching decided by type analysis", "anchors": ["include/sleipnir/autodiff/jacobian.hpp: Jacobian, value"]}
{"id": "C28", "title": "Changing a constant after building a Jacobian", "statement": "If a Variable holding a constant is assigned a new value with set_value, a Jacobian built earlier reflects the new value.", "quantifier": "all expressions with constants that are later reassigned", "why_tests_cant": "history dependent", "anchors": ["include/sleipnir/autodiff/jacobian.hpp: Jacobian", "include/sleipnir/autodiff/variable.hpp: set_value"]}
{"id": "C29", "title": "The Hessian is the matrix of second partial derivatives", "statement": "Hessian(f, wrt).value() contains exactly the second partial derivatives at points where every operation of the function is used where it is smooth; it is symmetric when all triangles are requested, and the lower-triangular variant is its lower triangle.", "quantifier": "all expressions, wrt vectors and points", "why_tests_cant": "continuum of inputs", "anchors": ["include/sleipnir/autodiff/hessian.hpp: Hessian, get, value"]}
{"id": "C30", "title": "Repeated differentiation variables", "statement": "If the same variable occurs twice in wrt, get() and value() agree in every column.", "quantifier": "all wrt vectors including repetitions", "why_tests_cant": "only repeated entries expose it", "anchors": ["include/sleipnir/autodiff/jacobian.hpp: get, value", "include/sleipnir/autodiff/variable_matrix.hpp: gradient_tree"]}
{"id": "C31", "title": "Comparison operators create the constraint they denote", "statement": "lhs == rhs, <=, <, >=, >, and bounds(l,x,u) on scalars and matrices (with scalar broadcasting on either side) create exactly one elementary constraint per element; the constraint object converts to true exactly when the elementwise relation holds for the current values (strict comparisons are treated as non-strict).", "quantifier": "all shapes, operand kinds and values", "why_tests_cant": "all shapes and values", "anchors": ["include/sleipnir/autodiff/variable.hpp: make_constraints, EqualityConstraints, InequalityConstraints, operator==, operator<=, operator>=, bounds"]}
{"id": "C32", "title": "Decision variables are fresh, ordered and independent", "statement": "decision_variable(r,c) registers r*c new distinct variables in row-major order, symmetric_decision_variable(n) registers exactly n(n+1)/2 new variables and returns a symmetric matrix of them; earlier registrations are unaffected.", "quantifier": "all call sequences and sizes", "why_tests_cant": "unbounded sequences", "anchors": ["include/sleipnir/optimization/problem.hpp: decision_variable, symmetric_decision_variable"]}
{"id": "C33", "title": "The problem handed to the solver is the user's problem", "statement": "The cost is the last minimize argument or the negation of the last maximize argument (0 if none), and the constraints are all subject_to arguments in order; a point satisfies all elementary constraints c_e = 0, c_i >= 0 iff it satisfies all user constraints.", "quantifier": "all sequences of API calls", "why_tests_cant": "unbounded sequences", "anchors": ["include/sleipnir/optimization/problem.hpp: minimize, maximize, subject_to, solve"]}
{"id": "C34", "title": "SUCCESS from solve() means constraints hold", "statement": "When solve() reports SUCCESS, all constraints hold at the resulting variable values up to the tolerance.", "quantifier": "all problems, including those consisting only of constants", "why_tests_cant": "all problems; corner cases", "anchors": ["include/sleipnir/optimization/problem.hpp: solve", "include/sleipnir/optimization/solver/newton.hpp", "include/sleipnir/optimization/solver/sqp.hpp", "include/sleipnir/optimization/solver/interior_point.hpp"]}
{"id": "C35", "title": "The right algorithm is chosen and results are written back", "statement": "solve() uses no solver for all-constant problems, Newton when there are no constraints, SQP with only equality constraints and the interior-point method otherwise, and afterwards the decision variables hold exactly the final iterate (unchanged on GLOBALLY_INFEASIBLE); constraint counts and types do not change.", "quantifier": "all problems", "why_tests_cant": "all problems", "anchors": ["include/sleipnir/optimization/problem.hpp: solve, cost_function_type, equality_constraint_type, inequality_constraint_type"]}
{"id": "C36", "title": "Callbacks run in order each iteration and can stop the solve", "statement": "At each iteration user callbacks run in registration order, then persistent ones; as soon as one returns true, no later callback runs and the solve ends with CALLBACK_REQUESTED_STOP.", "quantifier": "all problems, callback lists and iteration histories, including iterations inside feasibility restoration", "why_tests_cant": "unbounded histories", "anchors": ["include/sleipnir/optimization/problem.hpp: add_callback, add_persistent_callback, solve", "include/sleipnir/optimization/solver/sqp.hpp", "include/sleipnir/optimization/solver/interior_point.hpp", "include/sleipnir/optimization/solver/util/feasibility_restoration.hpp"]}
{"id": "C37", "title": "Detected bounds are implied and conflicts are real", "statement": "The bounds extracted from single-variable linear inequality constraints are exactly the tightest implied by those constraints; a conflict is reported iff two such constraints on a variable cannot both hold, so GLOBALLY_INFEASIBLE is reported only for infeasible problems.", "quantifier": "all lists of affine constraints over the decision variables", "why_tests_cant": "all coefficient values and constraint lists", "anchors": ["include/sleipnir/optimization/solver/util/bounds.hpp: get_bounds", "include/sleipnir/optimization/problem.hpp: solve"]}
{"id": "C38", "title": "Bound detection works for every linear inequality", "statement": "solve() processes every linear inequality constraint without tripping internal assertions, including those in which variables cancel.", "quantifier": "all linear inequality constraints expressible with the public operators", "why_tests_cant": "special cancellation shapes", "anchors": ["include/sleipnir/optimization/solver/util/bounds.hpp: get_bounds"]}
{"id": "C39", "title": "Initial guesses are moved strictly inside simple bounds", "statement": "Projecting a guess onto bounds returns a point within [lower, upper] in every coordinate, strictly inside when the interval has nonempty interior, and leaves sufficiently interior coordinates unchanged.", "quantifier": "all finite or infinite bounds with lower <= upper and all guesses", "why_tests_cant": "continuum", "anchors": ["include/sleipnir/optimization/solver/util/bounds.hpp: project_onto_bounds"]}
{"id": "C40", "title": "Problem scaling is positive, at most one, and bounds gradients", "statement": "The automatic scale factors of cost and constraints are in (0,1], equal 1 when gradients are at most 100 in infinity norm, and make every scaled gradient at most 100 in infinity norm.", "quantifier": "all gradients and Jacobians", "why_tests_cant": "continuum and all sizes", "anchors": ["include/sleipnir/optimization/solver/util/problem_scaling.hpp: ProblemScaling", "include/sleipnir/optimization/solver/util/sparse_inf_norms.hpp"]}
{"id": "C41", "title": "The convergence test is about the unscaled problem", "statement": "The error compared against the tolerance equals the KKT error of the original (unscaled) problem at the unscaled multipliers, so tolerance has the same meaning whatever scaling is chosen.", "quantifier": "all scalings, iterates and problem data", "why_tests_cant": "identity over all vectors", "anchors": ["include/sleipnir/optimization/solver/util/kkt_error.hpp: unscaled_kkt_error", "include/sleipnir/optimization/solver/sqp.hpp", "include/sleipnir/optimization/solver/interior_point.hpp"]}
{"id": "C42", "title": "A convergence report bounds every KKT residual", "statement": "When the unscaled error is at most the tolerance then the stationarity residual (after the documented multiplier-magnitude scaling), each equality residual, and each complementarity and slack residual is at most the tolerance.", "quantifier": "all iterates", "why_tests_cant": "norm inequality for all vectors", "anchors": ["include/sleipnir/optimization/solver/util/kkt_error.hpp: kkt_error"]}
{"id": "C43", "title": "Fraction-to-the-boundary steps keep slacks positive and are maximal", "statement": "For positive x and any step p the rule returns alpha in (0,1] such that x + alpha p >= (1-tau) x componentwise, and no larger step in (0,1] has this property.", "quantifier": "all dimensions, positive vectors, steps and tau in (0,1]", "why_tests_cant": "all dimensions and reals", "anchors": ["include/sleipnir/optimization/solver/util/fraction_to_the_boundary_rule.hpp"]}
{"id": "C44", "title": "The filter accepts only points that make progress", "statement": "An iterate accepted by the line-search filter is not dominated by any earlier recorded pair and its constraint violation never exceeds the maximum; recorded entries never dominate each other; the filter never forgets a region it excluded until it is reset.", "quantifier": "all sequences of trial points since the last reset", "why_tests_cant": "unbounded histories", "anchors": ["include/sleipnir/optimization/solver/util/filter.hpp: Filter::try_add, add, in_filter"]}
{"id": "C45", "title": "The filter rejects non-finite trial points", "statement": "A trial point whose cost or constraint violation is NaN or infinite is never accepted.", "quantifier": "all trial points including NaN and infinities", "why_tests_cant": "special values", "anchors": ["include/sleipnir/optimization/solver/util/filter.hpp: Filter::try_add", "include/sleipnir/optimization/solver/sqp.hpp", "include/sleipnir/optimization/solver/interior_point.hpp"]}
{"id": "C46", "title": "Regularized factorization terminates with the required inertia", "statement": "The regularized factorization stops for every matrix; if it reports success the (regularized) matrix has exactly n positive, m negative and no zero pivots; the regularization is positive unless the matrix already had the right inertia.", "quantifier": "all matrices and factorization outcomes", "why_tests_cant": "unbounded loop; all matrices", "anchors": ["include/sleipnir/optimization/solver/util/sparse_regularized_ldlt.hpp: compute", "include/sleipnir/optimization/solver/util/dense_regularized_ldlt.hpp: compute", "include/sleipnir/optimization/solver/util/inertia.hpp: Inertia"]}
{"id": "C47", "title": "Stacked triplets assemble the stacked matrix in order", "statement": "Assembling sparse blocks into triplets at given offsets yields exactly the entries of the vertically stacked matrix at those offsets, in column-major sorted order, each entry once.", "quantifier": "all lists of sparse matrices with equal column counts", "why_tests_cant": "all sizes and sparsity patterns", "anchors": ["include/sleipnir/optimization/solver/util/append_as_triplets.hpp"]}
{"id": "C48", "title": "Feasibility restoration starts strictly feasible", "statement": "The initial elastic variables p and n of feasibility restoration are strictly positive, satisfy c - p + n = 0 exactly and minimize the elastic barrier objective along that line.", "quantifier": "all residuals c, all rho > 0 and mu > 0", "why_tests_cant": "continuum", "anchors": ["include/sleipnir/optimization/solver/util/feasibility_restoration.hpp: compute_p_n"]}
{"id": "C49", "title": "The restoration subproblem relaxes exactly the original constraints", "statement": "A point with p = n = 0 satisfies the restoration constraints iff it satisfies the original ones; the subproblem's constraint Jacobians and Lagrangian Hessian are those of the subproblem's functions.", "quantifier": "all problems", "why_tests_cant": "all problems and sizes", "anchors": ["include/sleipnir/optimization/solver/util/feasibility_restoration.hpp: feasibility_restoration"]}
{"id": "C50", "title": "Newton solver: bounded, faithful outcome", "statement": "The unconstrained solver performs at most max(1, max_iterations) iterations, never accepts a step to a point with non-finite cost, returns SUCCESS only if the gradient norm is within tolerance, and its status code describes what happened.", "quantifier": "all cost/gradient/Hessian functions including those producing NaN or infinity, all callbacks and clocks", "why_tests_cant": "arbitrary user functions; unbounded histories", "anchors": ["include/sleipnir/optimization/solver/newton.hpp: newton"]}
{"id": "C51", "title": "SQP solver: bounded, faithful outcome", "statement": "The equality-constrained solver performs at most max(1, max_iterations) outer iterations, accepts only filter-acceptable or error-reducing steps, and returns SUCCESS only if the KKT error is within tolerance.", "quantifier": "all problem functions including those producing NaN or infinity, all callbacks and clocks", "why_tests_cant": "arbitrary user functions; unbounded histories", "anchors": ["include/sleipnir/optimization/solver/sqp.hpp: sqp"]}
{"id": "C52", "title": "Interior-point iterates stay strictly positive", "statement": "Throughout the interior-point iteration every slack and every inequality multiplier seen at the start of an iteration is strictly positive.", "quantifier": "all problems and all iteration histories that reach that point", "why_tests_cant": "unbounded histories", "anchors": ["include/sleipnir/optimization/solver/interior_point.hpp: interior_point", "include/sleipnir/optimization/solver/util/fraction_to_the_boundary_rule.hpp"]}
{"id": "C53", "title": "The barrier parameter decreases to its floor and no further", "statement": "The barrier parameter never increases, stays at or above its floor (or where it started, if that is lower), strictly decreases on each update until the floor is reached, reaches the floor after finitely many updates, and tau stays in [0.99, 1).", "quantifier": "all tolerances, scalings and update histories", "why_tests_cant": "unbounded histories", "anchors": ["include/sleipnir/optimization/solver/interior_point.hpp: update_barrier_parameter_and_reset_filter"]}
{"id": "C54", "title": "The reduced Newton system solves the full KKT system", "statement": "The steps (p_x, p_s, p_y, p_z) obtained from the reduced linear system satisfy all four blocks of the full primal-dual Newton system.", "quantifier": "all problem data with positive slacks and multipliers, all dimensions", "why_tests_cant": "linear-algebra identity for all sizes", "anchors": ["include/sleipnir/optimization/solver/interior_point.hpp: compute_step, lhs, rhs"]}
{"id": "C55", "title": "Line searches terminate", "statement": "Every line search ends after finitely many trial points with an accepted step or a definite failure, whatever values the problem functions return.", "quantifier": "all problem functions, all step directions", "why_tests_cant": "unbounded loop over arbitrary user functions", "anchors": ["include/sleipnir/optimization/solver/newton.hpp", "include/sleipnir/optimization/solver/sqp.hpp", "include/sleipnir/optimization/solver/interior_point.hpp"]}
{"id": "C56", "title": "Iteration and time limits are reported as such", "statement": "When the iteration limit or timeout is hit, including during feasibility restoration, the status is MAX_ITERATIONS_EXCEEDED respectively TIMEOUT, and a limit of n allows at most n iterations.", "quantifier": "all problems, limits and clocks", "why_tests_cant": "depends on histories", "anchors": ["include/sleipnir/optimization/solver/interior_point.hpp", "include/sleipnir/optimization/solver/sqp.hpp", "include/sleipnir/optimization/solver/util/feasibility_restoration.hpp"]}
{"id": "C57", "title": "Multistart returns the best successful run", "statement": "multistart returns the lowest-cost result among successful runs if any run succeeded, otherwise the lowest-cost result; every initial guess is solved exactly once; results do not depend on thread scheduling.", "quantifier": "all lists of initial guesses, all solver outcomes and schedules", "why_tests_cant": "all outcomes and schedules", "anchors": ["include/sleipnir/optimization/multistart.hpp: Multistart"]}
{"id": "C58", "title": "Optimal control dynamics constraints encode the discretized dynamics", "statement": "With direct transcription, X satisfies the added constraints iff X[k+1] is the RK4 (or user discrete) update of X[k] for every k; with single shooting, X is the simulated trajectory from the first column; N*num_states scalar constraints are added for transcription and none for shooting.", "quantifier": "all horizons, dynamics functions and timestep methods", "why_tests_cant": "all horizons and functions", "anchors": ["include/sleipnir/optimization/ocp.hpp: OCP, rk4, constrain_direct_transcription, constrain_single_shooting"]}
{"id": "C59", "title": "Collocation constraints are Hermite-Simpson", "statement": "A trajectory satisfies the direct-collocation constraints iff on each interval the cubic Hermite interpolant of the states and slopes satisfies the dynamics at the interval midpoint with the averaged input.", "quantifier": "all dynamics, horizons, states and positive timesteps", "why_tests_cant": "identity over all reals", "anchors": ["include/sleipnir/optimization/ocp.hpp: constrain_direct_collocation"]}
{"id": "C60", "title": "RK4 integrates with the classical fourth-order weights", "statement": "The integrator reproduces the exact solution for time-polynomial dynamics of degree up to three, and for linear dynamics x' = a x multiplies by 1 + ah + (ah)^2/2 + (ah)^3/6 + (ah)^4/24.", "quantifier": "all step sizes, coefficients and states", "why_tests_cant": "polynomial identity", "anchors": ["include/sleipnir/optimization/ocp.hpp: rk4"]}
{"id": "C61", "title": "for_each_step visits every step with its state and input", "statement": "for_each_step calls the callback exactly N+1 times, with the k-th state and input columns in order; constrain_initial/final_state, bounds and timestep helpers add exactly the documented constraints.", "quantifier": "all horizons and all dimensions", "why_tests_cant": "all horizons", "anchors": ["include/sleipnir/optimization/ocp.hpp: for_each_step, set_lower_input_bound, set_upper_input_bound, set_min_timestep, set_max_timestep, constrain_initial_state, constrain_final_state"]}
{"id": "C62", "title": "Initial states can be constrained with every transcription method", "statement": "constrain_initial_state(v) together with single shooting yields a problem whose feasible points have initial state v.", "quantifier": "all initial states v and dynamics", "why_tests_cant": "feasibility statement over all points", "anchors": ["include/sleipnir/optimization/ocp.hpp: constrain_initial_state, constrain_single_shooting"]}
{"id": "C63", "title": "Lagrange multiplier estimates are least-squares and respect bounds", "statement": "The multiplier estimate solves the normal equations of the stationarity residual, and the returned inequality multipliers are clamped into the positive interval tied to the slacks.", "quantifier": "all gradients, Jacobians, slacks", "why_tests_cant": "all sizes and reals", "anchors": ["include/sleipnir/optimization/solver/util/lagrange_multiplier_estimate.hpp"]}
{"id": "C64", "title": "Local infeasibility is only declared at stationary infeasible points", "statement": "LOCALLY_INFEASIBLE is declared only when the constraint violation exceeds the stated threshold while its gradient is below the stated threshold; a point satisfying all constraints is never declared locally infeasible.", "quantifier": "all constraint values and Jacobians", "why_tests_cant": "all reals and sizes", "anchors": ["include/sleipnir/optimization/solver/util/is_locally_infeasible.hpp"]}
{"id": "C65", "title": "Infeasibility diagnostics list every violated constraint", "statement": "When local infeasibility is reported with diagnostics on, every violated constraint is printed and no satisfied constraint is.", "quantifier": "all constraint value vectors", "why_tests_cant": "all sign patterns", "anchors": ["include/sleipnir/util/print_diagnostics.hpp: print_c_e_local_infeasibility_error, print_c_i_local_infeasibility_error"]}
{"id": "C66", "title": "Scope-exit actions run exactly once", "statement": "The action registered with a scope-exit guard runs exactly once when its final owner is destroyed, regardless of how often the guard is moved, and never if released.", "quantifier": "all sequences of moves, releases and destructions", "why_tests_cant": "unbounded sequences", "anchors": ["include/sleipnir/util/scope_exit.hpp: scope_exit"]}
{"id": "C67", "title": "Profiler totals and averages are consistent", "statement": "After any number of measured intervals the profiler's count, total and running average satisfy average * count = total.", "quantifier": "all sequences of durations", "why_tests_cant": "unbounded sequences", "anchors": ["include/sleipnir/util/profiler.hpp: SolveProfiler"]}
{"id": "C68", "title": "Sparsity recordings decode to the recorded matrices", "statement": "The binary sparsity file written during a solve can be decoded to recover the matrix dimensions and, for every iteration in order, exactly the nonzero positions with their signs.", "quantifier": "all matrices and iteration counts", "why_tests_cant": "all sizes and contents", "anchors": ["include/sleipnir/util/spy.hpp: Spy"]}
{"id": "C69", "title": "Variables may be destroyed on another thread", "statement": "A Variable created on one thread may be destroyed on another without the library later handing out memory that no longer exists.", "quantifier": "all histories of two threads that create, destroy and end", "why_tests_cant": "needs a particular cross-thread lifetime; a test that stays within one thread never sees it", "anchors": ["include/sleipnir/util/pool.hpp: PoolResource, PoolAllocator", "src/util/pool.cpp: global_pool_resource", "include/sleipnir/autodiff/expression.hpp: dec_ref_count"]}
{"id": "C70", "title": "Scoped profilers stop exactly once", "statement": "Every measurement begun by a scoped profiler is stopped exactly once: when its owner is stopped or destroyed, however often it was moved and whether or not it was stopped by hand.", "quantifier": "all sequences of creations, moves, stops and destructions", "why_tests_cant": "unbounded sequences", "anchors": ["include/sleipnir/util/profiler.hpp: ScopedProfiler"]}
{"id": "C71", "title": "The regularization column brackets the value", "statement": "The power of ten printed for a positive regularization value v is 10^e with 10^e <= v < 10^(e+1) for v >= 1 and 10^(e-1) < v <= 10^e for v < 1, and its digits spell e.", "quantifier": "all positive values", "why_tests_cant": "all magnitudes", "anchors": ["include/sleipnir/util/print_diagnostics.hpp: power_of_10"]}
{"id": "C72", "title": "Histogram bars have the advertised width and length", "statement": "histogram<Width>(v) is exactly Width cells: full cells, at most one partial cell, then blanks, together showing v clamped to [0, 1] rounded down to an eighth of a cell.", "quantifier": "all widths and values", "why_tests_cant": "all values; rounding at cell boundaries", "anchors": ["include/sleipnir/util/print_diagnostics.hpp: histogram"]}
{"id": "C73", "title": "Feasibility restoration starts feasibly and complementarily", "statement": "Feasibility restoration keeps the decision variables it is called with, starts at a point satisfying its own relaxed constraints with positive slacks and multipliers, and each multiplier is complementary to its slack at the barrier parameter.", "quantifier": "all problems, iterates, slacks and barrier parameters", "why_tests_cant": "all problems and sizes", "anchors": ["include/sleipnir/optimization/solver/util/feasibility_restoration.hpp: feasibility_restoration"]}
{"id": "C74", "title": "Fraction-to-the-boundary steps in double precision", "statement": "Computed in IEEE double precision, the step size chosen by the fraction-to-the-boundary rule is finite, nonnegative and at most 1 up to rounding, and moving the slacks by it leaves every computed slack strictly positive.", "quantifier": "all slack vectors, directions (infinities and NaN included) and fractions tau representable as doubles, all mathematics libraries", "why_tests_cant": "rounding errors accumulate with the number of components; overflow and underflow appear at extreme magnitudes only", "anchors": ["include/sleipnir/optimization/solver/util/fraction_to_the_boundary_rule.hpp: fraction_to_the_boundary_rule"]}
{"id": "C75", "title": "Solver loops terminate in double precision", "statement": "With double-precision arithmetic Newton's method returns, and the line searches of SQP and of the interior-point method stop after at most 25 and 26 trial points.", "quantifier": "all problems, iterates, directions and mathematics libraries", "why_tests_cant": "termination over all doubles, including infinities and NaN", "anchors": ["include/sleipnir/optimization/solver/newton.hpp: newton", "include/sleipnir/optimization/solver/sqp.hpp: sqp", "include/sleipnir/optimization/solver/interior_point.hpp: interior_point"]}
{"id": "C76", "title": "The barrier parameter in double precision", "statement": "Computed in double precision, one update of the barrier parameter ends, never increases the parameter, never takes it below its floor, and keeps the fraction tau strictly below 1.", "quantifier": "all tolerances, barrier parameters and error functions representable as doubles", "why_tests_cant": "1 - mu rounds to 1 only for very small parameters", "anchors": ["include/sleipnir/optimization/solver/interior_point.hpp: interior_point (update_barrier_parameter_and_reset_filter)"]}
{"id": "C77", "title": "Regularized factorization in double precision", "statement": "Computed in double precision, the search for a regularization ends within 425 trials whatever the factorizations return; success means a factorization with the right signs of pivots, failure that a regularization exceeded 1e20.", "quantifier": "all factorization outcomes, minimal regularizations and previous regularizations", "why_tests_cant": "all sequences of factorization outcomes", "anchors": ["include/sleipnir/optimization/solver/util/sparse_regularized_ldlt.hpp: compute", "include/sleipnir/optimization/solver/util/dense_regularized_ldlt.hpp: compute"]}
{"id": "C78", "title": "Problem scaling in double precision", "statement": "Computed in double precision from finite gradients, every scaling factor is finite, lies in (0, 1], and brings the gradient entries to at most 100; it is 1 or brings an entry to 100 up to rounding.", "quantifier": "all finite gradients and Jacobians, all sizes", "why_tests_cant": "all magnitudes, including those where a quotient could overflow or underflow", "anchors": ["include/sleipnir/optimization/solver/util/problem_scaling.hpp: ProblemScaling"]}
{"id": "C79", "title": "The line-search filter in double precision", "statement": "With double-precision costs and violations a point is accepted only if its cost is finite, its violation is not above the maximum, no recorded entry dominates it and it passed a decrease test; regions once excluded stay excluded until the filter is reset.", "quantifier": "all histories of filters over doubles, infinities and NaN included", "why_tests_cant": "unbounded histories; special values", "anchors": ["include/sleipnir/optimization/solver/util/filter.hpp: Filter"]}
{"id": "C80", "title": "Solvers work on the derivatives of the user's problem", "statement": "Whatever statements built the problem, wherever its expressions are smooth the solver that solve() runs works with the exact gradient of the user's cost, the exact Jacobians of their constraints and the exact second derivatives of the Lagrangian, each multiplied by fixed positive scaling factors, in the order of the decision variables and constraints.", "quantifier": "all programs that build problems, all points and multipliers, all sizes", "why_tests_cant": "all expression graphs and points; derivatives are limits, not values", "anchors": ["include/sleipnir/optimization/problem.hpp: Problem::solve (matrix callbacks)", "include/sleipnir/autodiff/hessian.hpp: Hessian", "include/sleipnir/autodiff/jacobian.hpp: Jacobian"]}
{"id": "C81", "title": "SUCCESS means an approximate KKT point of the user's problem", "statement": "When solve() reports SUCCESS the final values satisfy every relation within the tolerance, and there are multipliers and slacks with which the gradient of the user's Lagrangian and the complementarity products are within the tolerance of zero, up to the documented excuse for large multipliers.", "quantifier": "all programs, solves, callbacks, clocks and linear solvers", "why_tests_cant": "all histories and problems; needs derivatives of the user's expressions rather than what the solver computed", "anchors": ["include/sleipnir/optimization/problem.hpp: Problem::solve", "include/sleipnir/optimization/solver/util/kkt_error.hpp: unscaled_kkt_error", "include/sleipnir/optimization/solver/interior_point.hpp: interior_point", "include/sleipnir/optimization/solver/sqp.hpp: sqp", "include/sleipnir/optimization/solver/newton.hpp: newton"]}
{"id": "C82", "title": "solve() returns", "statement": "After any well-formed history of statements and solves, once a problem has been set up solve() comes back with a status: no solver, restoration phase or line search fails an assertion, does something undefined or runs on forever, even if cost, constraints or derivatives evaluate to NaN or infinity. Setting up succeeds whenever no inequality constraint is linear.", "quantifier": "all histories, callbacks, clocks, linear-solver answers, iteration limits, positive tolerances, sizes", "why_tests_cant": "all schedules of callbacks and clocks, all functions and all nested loops; non-termination cannot be observed", "anchors": ["include/sleipnir/optimization/problem.hpp: Problem::solve", "include/sleipnir/optimization/solver/interior_point.hpp: interior_point", "include/sleipnir/optimization/solver/sqp.hpp: sqp", "include/sleipnir/optimization/solver/newton.hpp: newton", "include/sleipnir/optimization/solver/util/feasibility_restoration.hpp: feasibility_restoration"]}
{"id": "C83", "title": "GLOBALLY_INFEASIBLE is never wrong, and problems with linear inequalities are set up", "statement": "When solve() answers GLOBALLY_INFEASIBLE, no values of the decision variables satisfy all of the user's inequality constraints. Whenever every linear inequality really depends on a decision variable, setting up and solving the problem ends with a status.", "quantifier": "all programs that build problems with inequality constraints smooth at the start, all assignments of the decision variables, all sizes", "why_tests_cant": "a claim about all points of the search space and all expression graphs", "anchors": ["include/sleipnir/optimization/problem.hpp: Problem::solve (conflicting bounds)", "include/sleipnir/optimization/solver/util/bounds.hpp: get_bounds"]}
{"id": "C84", "title": "Starting at a solution costs nothing", "statement": "A problem without inequality constraints whose variables already satisfy the equalities and make the cost flat, both within the tolerance, is answered SUCCESS without moving any variable, whatever the callbacks, time and iteration limits are. In particular solving an unconstrained problem twice gives SUCCESS and the same values the second time.", "quantifier": "all histories of statements and solves, callbacks, clocks, linear-solver answers, options", "why_tests_cant": "all expression graphs, points and histories; needs the derivatives of the user's cost", "anchors": ["include/sleipnir/optimization/problem.hpp: Problem::solve", "include/sleipnir/optimization/solver/newton.hpp: newton", "include/sleipnir/optimization/solver/sqp.hpp: sqp"]}
{"id": "C85", "title": "Which answers are possible follows from the constraints", "statement": "LINE_SEARCH_FAILED comes only from unconstrained problems, TOO_FEW_DOFS only when there are more equalities than decision variables, GLOBALLY_INFEASIBLE only with inequality constraints, infeasibility, factorization and restoration failures only with constraints. With more equalities than variables no variable is moved. NONFINITE_INITIAL_GUESS never comes from a problem that is smooth at its starting values.", "quantifier": "all histories of statements and solves, callbacks, clocks, linear-solver answers, options", "why_tests_cant": "all problems and executions of three solvers with nested restoration", "anchors": ["include/sleipnir/optimization/problem.hpp: Problem::solve", "include/sleipnir/optimization/solver/exit_status.hpp: ExitStatus", "include/sleipnir/optimization/solver/newton.hpp: newton", "include/sleipnir/optimization/solver/sqp.hpp: sqp", "include/sleipnir/optimization/solver/interior_point.hpp: interior_point"]}
{"id": "C86", "title": "A solved OCP follows the dynamics", "statement": "When a problem containing an OCP is solved with SUCCESS, the states, inputs and timesteps the OCP shows follow the user's dynamics: with direct transcription every state entry is within the tolerance of the Runge-Kutta (or user's discrete) update of the state before, with collocation the midpoint slope is within the tolerance of the dynamics, with single shooting the trajectory is exact at every point. Initial and final state constraints, input bounds and timestep bounds given as numbers hold within the tolerance. This stays true whatever else is added to the problem and however often it was solved before.", "quantifier": "all dynamics, horizons, dimensions, timesteps, further statements and earlier solves, callbacks, clocks, linear-solver answers", "why_tests_cant": "all dynamics, histories and solver executions; ties the OCP's generated constraints to what SUCCESS means", "anchors": ["include/sleipnir/optimization/ocp.hpp: OCP", "include/sleipnir/optimization/problem.hpp: Problem::solve"]}
{"id": "C87", "title": "Solving works with numbers", "statement": "If the cost and constraints are smooth wherever the decision variables are put, and the linear solver answers numbers with numbers, then in exact arithmetic (no overflow) whatever status solve() ends in, every decision variable's value is a number afterwards, the multipliers are numbers, the slacks and the inequality multipliers are positive, and so is everything any callback is shown, feasibility restoration included. SUCCESS then means an approximate KKT point, and a solved OCP follows its dynamics, without further conditions on what the solver computed.", "quantifier": "all histories of statements and solves, callbacks, clocks, linear-solver answers, options, sizes", "why_tests_cant": "all executions of three solvers with nested restoration, including those that fail half-way", "anchors": ["include/sleipnir/optimization/problem.hpp: Problem::solve", "include/sleipnir/optimization/solver/newton.hpp: newton", "include/sleipnir/optimization/solver/sqp.hpp: sqp", "include/sleipnir/optimization/solver/interior_point.hpp: interior_point", "include/sleipnir/optimization/solver/util/feasibility_restoration.hpp: feasibility_restoration"]}
{"id": "C88", "title": "On convex problems SUCCESS is global", "statement": "When the cost is convex, the equality constraints are affine and the inequality constraints bound a concave function from below, a SUCCESS of solve() is not only local: no assignment of the decision variables that satisfies all constraints has a cost below the final one by more than the tolerance times an explicit factor in the multipliers and in the distance to it. For an unconstrained problem the factor is the distance alone.", "quantifier": "all smooth convex problems, all assignments of the decision variables, histories of statements and solves, callbacks, clocks, linear-solver answers, options", "why_tests_cant": "a claim about every feasible point of the search space and every execution; a test compares with one known optimum", "anchors": ["include/sleipnir/optimization/problem.hpp: Problem::solve", "include/sleipnir/optimization/solver/newton.hpp: newton", "include/sleipnir/optimization/solver/sqp.hpp: sqp", "include/sleipnir/optimization/solver/interior_point.hpp: interior_point", "include/sleipnir/optimization/solver/util/kkt_error.hpp: kkt_error"]}
{"id": "C89", "title": "Strictly convex quadratics are solved in one step", "statement": "An unconstrained problem whose cost is a strictly convex quadratic function of the decision variables (modulus at least 1e-4, and not so steep at the start that scaling takes it below that) is minimised by one Newton step: callbacks run at most once, and solve() ends in SUCCESS at the one minimiser, unless the start was already within the tolerance, a start value is beyond 1e10, a callback stops the solve, or the time or iteration limit (of one) is reported.", "quantifier": "all quadratic costs however written, all dimensions and starts, histories of statements, callbacks, clocks, options; exact arithmetic", "why_tests_cant": "all matrices and start points of all dimensions; needs that regularization, filter and line search never interfere", "anchors": ["include/sleipnir/optimization/problem.hpp: Problem::solve", "include/sleipnir/optimization/solver/newton.hpp: newton", "include/sleipnir/optimization/solver/util/filter.hpp: Filter::try_add", "include/sleipnir/optimization/solver/util/regularized_ldlt.hpp: RegularizedLDLT", "include/sleipnir/optimization/solver/util/dense_regularized_ldlt.hpp: DenseRegularizedLDLT", "include/sleipnir/optimization/solver/util/problem_scaling.hpp: ProblemScaling"]}
{"id": "C90", "title": "Newton's method makes progress at every iteration", "statement": "Solving an unconstrained problem with exact factorizations, every iteration improves on the one before: the cost falls, or the sum of the absolute partial derivatives shrinks by at least a thousandth. This holds whether or not the Hessian is definite, because regularized factorization succeeds and its step points down the gradient, as long as no second derivative exceeds 1e12 divided by the number of variables. The points visited begin with the user's values and end with the values written back; every callback sees the point of the iteration it is told.", "quantifier": "all smooth costs, convex or not, starts, dimensions, callbacks, clocks, options and ways of ending; exact arithmetic", "why_tests_cant": "all Hessians and all iterations; a test sees single trajectories, where a step uphill may still end well", "anchors": ["include/sleipnir/optimization/solver/newton.hpp: newton", "include/sleipnir/optimization/solver/util/filter.hpp: Filter::try_add", "include/sleipnir/optimization/solver/util/regularized_ldlt.hpp: RegularizedLDLT", "include/sleipnir/optimization/solver/util/dense_regularized_ldlt.hpp: DenseRegularizedLDLT"]}
{"id": "C91", "title": "Equality-constrained quadratic programs are solved in one step", "statement": "A problem whose cost is a strictly convex quadratic and whose constraints are linearly independent affine equalities is solved by one SQP step: callbacks run at most once, and solve() ends in SUCCESS at the one constrained minimiser, with the constraints satisfied exactly. It is never reported infeasible, never falls back to feasibility restoration and never fails to factorize. Exceptions are those of the unconstrained case: a start within the tolerance is kept, and a start beyond 1e10, a callback's stop and the limits are reported as such. Moduli are at least 1e-4, the constraints' partial derivatives at most 100, and the start is feasible or violates the constraints by more than 1e-4 in total.", "quantifier": "all quadratic costs and affine constraints however written, all dimensions, numbers of constraints and starts, histories of statements, callbacks, clocks, options; exact arithmetic", "why_tests_cant": "all matrices and start points of all dimensions; needs that infeasibility detection, regularization, filter, second-order corrections and restoration never interfere", "anchors": ["include/sleipnir/optimization/problem.hpp: Problem::solve", "include/sleipnir/optimization/solver/sqp.hpp: sqp", "include/sleipnir/optimization/solver/util/filter.hpp: Filter::try_add", "include/sleipnir/optimization/solver/util/regularized_ldlt.hpp: RegularizedLDLT", "include/sleipnir/optimization/solver/util/dense_regularized_ldlt.hpp: DenseRegularizedLDLT", "include/sleipnir/optimization/solver/util/problem_scaling.hpp: ProblemScaling", "include/sleipnir/optimization/solver/util/is_locally_infeasible.hpp: is_equality_locally_infeasible"]}
{"id": "C92", "title": "Python subscripts select what an array would", "statement": "For a VariableMatrix in Python and any block obtained from it by successive subscripts, x[i, j] with ints (negative ones counting from the end) is the entry that NumPy's rules lead to, x[I, J] with slices is a block of the selected shape whose [a, b] is x[I_a, J_b], and subscripts out of range or with step 0 raise an exception.", "quantifier": "all matrices up to 2^28 rows and columns, all chains of blocks of blocks with any start, stop and (positive or negative) step, all ints and slices", "why_tests_cant": "all chains of slicing; errors show only for particular combinations of negative indices, steps and nested blocks", "anchors": ["python/cpp/autodiff/bind_variable_matrix.cpp: __getitem__", "python/cpp/autodiff/bind_variable_block.cpp: __getitem__", "include/sleipnir/autodiff/variable_block.hpp: VariableBlock::operator[]", "include/sleipnir/autodiff/slice.hpp: Slice"]}
{"id": "C93", "title": "Python item assignment writes the selected entries and no others", "statement": "x[I, J] = value in Python, for x a VariableMatrix or a block of one, makes each selected entry the corresponding entry of the value (as it was before the assignment), leaves every other entry of the underlying matrix as it was, and raises without effect when the shapes differ or when a number is assigned to more than one entry.", "quantifier": "all matrices, chains of blocks, subscripts and values, including values that are blocks of the same matrix", "why_tests_cant": "frame condition over all other entries, for all shapes, steps and overlaps", "anchors": ["python/cpp/autodiff/bind_variable_matrix.cpp: __setitem__", "python/cpp/autodiff/bind_variable_block.cpp: __setitem__", "include/sleipnir/autodiff/variable_block.hpp: VariableBlock::operator="]}
{"id": "C94", "title": "Python iteration, flat subscripts and len() agree", "statement": "Iterating over a VariableMatrix or block in Python visits each entry exactly once in row-major order; the k-th visited is x[k], is x[k - n] for n entries, and is x[k // cols, k % cols]; len(x) is the number of entries visited.", "quantifier": "all matrices and chains of blocks", "why_tests_cant": "all shapes and steps of blocks; agreement of four access paths", "anchors": ["python/cpp/autodiff/bind_variable_matrix.cpp: __iter__, __len__, __getitem__", "python/cpp/autodiff/bind_variable_block.cpp: __iter__, __len__, __getitem__"]}
{"id": "C95", "title": "Keyword arguments of solve() in Python", "statement": "Problem.solve(**kwargs) in Python solves with exactly the options named, the others at their defaults, whatever the order of the arguments; an unknown name or a value of the wrong type raises before anything is solved.", "quantifier": "all sets of keyword arguments in all orders, all values", "why_tests_cant": "all subsets and orders of arguments", "anchors": ["python/cpp/optimization/bind_problem.cpp: solve", "include/sleipnir/optimization/solver/options.hpp: Options"]}
{"id": "C96", "title": "LOCALLY_INFEASIBLE on convex problems", "statement": "When solve() returns LOCALLY_INFEASIBLE on a convex problem, no assignment of the decision variables satisfies the constraints; at the least none does near the point it leaves the decision variables at.", "quantifier": "all convex problems built through the API, all starts, options and callbacks", "why_tests_cant": "ranges over all convex problems and all assignments of their variables", "anchors": ["include/sleipnir/optimization/problem.hpp: Problem::solve", "include/sleipnir/optimization/solver/util/is_locally_infeasible.hpp", "include/sleipnir/optimization/solver/sqp.hpp", "include/sleipnir/optimization/solver/interior_point.hpp"]}
{"id": "C97", "title": "Rate of convergence of Newton's method on uniformly convex costs", "statement": "For an unconstrained problem whose cost has second derivatives between m >= 1e-4 and L in every direction, and whose slopes at the start are at most 1e6 m: every iteration of solve() shrinks the difference between the cost and its minimum by a factor that depends on L / m alone; solve() can end only with slopes at most the tolerance, at iterates beyond 1e10, at a callback's request or at a limit; with limits that allow a certain finite number of iterations, and the start near enough to the origin, it returns SUCCESS and the cost left is within n tolerance^2 / (2 m) of the minimum.", "quantifier": "all such costs built through the API, all numbers of variables, starts, tolerances and options, with exact factorization", "why_tests_cant": "a rate over all iterations and a bound on their number for all uniformly convex costs", "anchors": ["include/sleipnir/optimization/problem.hpp: Problem::solve", "include/sleipnir/optimization/solver/newton.hpp", "include/sleipnir/optimization/solver/util/filter.hpp: Filter::try_add", "include/sleipnir/optimization/solver/util/regularized_ldlt.hpp"]}
{"id": "C98", "title": "Callbacks that read the decision variables, and exceptions that leave solve()", "statement": "Whenever solve() calls a callback, feasibility restoration included, value() of each decision variable is the entry of info.x that belongs to it. When a callback throws, the exception leaves solve(), no further callback is called, the decision variables hold the iterate that callback was shown, which is finite, and the problem is otherwise as before: it can be read, changed and solved again with everything else stated here still holding.", "quantifier": "all problems built through the API, all callbacks, starts and options, exceptions at any call", "why_tests_cant": "ranges over every iteration at which a callback may look or throw, and over all continuations after the exception", "anchors": ["include/sleipnir/optimization/problem.hpp: Problem::solve, add_callback, add_persistent_callback", "include/sleipnir/optimization/solver/newton.hpp", "include/sleipnir/optimization/solver/sqp.hpp", "include/sleipnir/optimization/solver/interior_point.hpp", "include/sleipnir/optimization/solver/util/feasibility_restoration.hpp"]}
{"id": "C99", "title": "Ctrl-C during solve() in Python", "statement": "In Python, a signal whose handler raises (Ctrl-C) ends the solve() of a Problem or an OCP at the next iteration with that exception, whatever callbacks were added or cleared; if it came in before solve() was called, the decision variables keep their values. A solve() that returns returns what it would have without any signal.", "quantifier": "all problems and optimal control problems, all sequences of add_callback() and clear_callbacks(), all times at which signals come in", "why_tests_cant": "ranges over all arrival times of signals and all callbacks", "anchors": ["python/cpp/optimization/bind_problem.cpp: __init__, add_callback, clear_callbacks", "python/cpp/optimization/bind_ocp.cpp: __init__", "include/sleipnir/optimization/problem.hpp: Problem::solve, add_persistent_callback, clear_callbacks"]}
{"id": "C100", "title": "Convexity from the Hessian, and global optimality", "statement": "If, wherever the decision variables are put, the second derivatives of what is minimised form a positive semidefinite matrix, those of every equality constraint vanish, and those of every inequality constraint (as a quantity that has to be nonnegative) form a negative semidefinite one, then a point at which solve() returns SUCCESS is globally optimal among those that satisfy the constraints, within the tolerance times a factor in the distance and the multipliers. When solve() uses Newton's method the matrix it computes itself is positive semidefinite everywhere exactly if the cost is convex.", "quantifier": "all problems built through the API out of functions that are smooth everywhere, all starts, options and callbacks, all competing assignments", "why_tests_cant": "ranges over all assignments of the variables, for the derivatives and for the competitors", "anchors": ["include/sleipnir/optimization/problem.hpp: Problem::solve", "include/sleipnir/autodiff/hessian.hpp", "include/sleipnir/optimization/solver/newton.hpp", "include/sleipnir/optimization/solver/sqp.hpp", "include/sleipnir/optimization/solver/interior_point.hpp"]}
{"id": "C101", "title": "NumPy arrays as operands in Python", "statement": "For a VariableMatrix or VariableBlock X in Python and a two-dimensional NumPy array A of double, float, int64 or int32 elements, laid out in memory in any way (transposed, strided, reversed, broadcast), A + X, X + A, A - X, X - A, A @ X and X @ A have the entries the elements of A and X say, each comparison gives constraints that are met exactly when it holds entry by entry, Y[I, J] = A writes the elements of A to the selected entries only, X.set_value(A) gives each variable of X the value of its element and changes no other variable, and VariableMatrix(A) holds the elements of A. Arrays of other types or dimensions, shapes that do not fit, other NumPy functions and their methods raise. np.add(A, B, out=X) and the like must not return something else than the function of A and B.", "quantifier": "all arrays a program can make by creating, transposing, slicing and broadcasting, all operators, all matrices and blocks, all shapes", "why_tests_cant": "ranges over all chains of views, each with its own strides and offset, times all operators and element types, with the operand on either side", "anchors": ["python/cpp/try_cast.hpp: try_cast_to_eigen, apply_eigen_op", "python/cpp/autodiff/bind_variable_matrix.cpp: __array_ufunc__, __add__, __sub__, __eq__, __setitem__", "python/cpp/autodiff/bind_variable_block.cpp: __array_ufunc__", "include/sleipnir/autodiff/variable.hpp: make_constraints"]}
{"id": "C102", "title": "Chained comparisons in Python", "statement": "In Python, subject_to(a <= x <= b), and any longer chain of comparisons, imposes every link of the chain, as subject_to(bounds(a, x, b)) does; whether it does so does not depend on the values of the variables when it is called.", "quantifier": "all problems built through the API, all chains of comparisons of any length between scalars and matrices of any shape, all values of the variables", "why_tests_cant": "ranges over all values the variables may have when the constraint is written, which decide what Python makes of the chain", "anchors": ["python/cpp/optimization/bind_equality_constraints.cpp: __bool__", "python/cpp/optimization/bind_inequality_constraints.cpp: __bool__", "python/cpp/optimization/bind_problem.cpp: subject_to", "include/sleipnir/autodiff/variable.hpp: InequalityConstraints::operator bool, bounds"]}
{"id": "C103", "title": "Constructing matrices of variables", "statement": "A VariableMatrix constructed from a nested list has the entries of the list, row by row, and a list with rows of different lengths is refused; one constructed from a span of r * c variables has entry (i, j) equal to element i * c + j of the span, and a span of another length is refused; one constructed from a diagonal matrix has its entries on the diagonal and zeros elsewhere; identity(), zero(), one() and constant() have the shape asked for and the entries their names say.", "quantifier": "all shapes whose number of entries is an int, all entries", "why_tests_cant": "loops and index arithmetic over all shapes", "anchors": ["include/sleipnir/autodiff/variable_matrix.hpp: VariableMatrix::VariableMatrix, identity, zero, one, constant"]}
