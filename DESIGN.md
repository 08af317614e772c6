# Formal model of Sleipnir in Rocq: design

The source modelled is `/repo` (C++, read as text, never built). The development is in
`rocq/theories`. File naming, per topic `X`:

* `XModel.v`  – definitions transcribed function by function from the C++ (each cites file:lines and
  says where it simplifies), no proofs;
* `XSpec.v`   – the independent specification (does not use the model's helpers);
* `XProofs.v` – lemmas;
* `XProps.v`  – only the property theorems (`Theorem … exact lemma. Qed.`), `Print Assumptions`,
  and an `Example` exhibiting a concrete non-trivial case of the hypotheses.

## Global modelling decisions

* **Scalars.** The C++ is templated over `Scalar`. The expression code is modelled over a record of
  scalar operations (`ScalarOps`), instantiated with Coq's `R` (calculus theorems: exact arithmetic,
  no rounding) and with *extended reals* `XR = Fin r | +inf | -inf | NaN` (IEEE special-value
  behaviour without rounding, overflow or signed zeros). Solver-side code is modelled over `XR` when NaN/inf
  behaviour matters and over `R` otherwise. The solver-side code is also instantiated with IEEE 754 binary64
  (`Dn M`, FloatModel.v, Flocq's `binary_float 53 1024`, round to nearest even, signed zeros, overflow and
  underflow; the functions of the C mathematics library are an arbitrary record `M`): properties C74–C79 are
  theorems about that instance. Theorems quantified over every `S : nops` or `S : sops` (C16, C17 evaluation,
  C36, C47, C50/C51 outcome, C56, …) cover doubles as well. All other theorems are about exact arithmetic:
  calculus (C19–C29), optimality and interior-point invariants (C52 …) say nothing about rounding.
* **Undefined behaviour** (out-of-bounds, signed overflow, use after free, dereferencing `end()`,
  failed `slp_assert`) is an explicit error outcome; theorems either exclude it under stated
  preconditions or exhibit a reachable state that has it (`_refuted`).
* **External code** (Eigen factorizations, user functions `f,g,H,c,A`, user callbacks, the clock,
  `std::async` scheduling) is universally quantified: Section variables that are closed at the end of
  the section, never axioms.
* **Loops** are transcribed with fuel when not structurally recursive; exhausting fuel is a distinct
  result and a theorem shows enough fuel always exists (termination).
* **Graph.** Heap nodes of the expression graph are numbered in allocation order. A node's operands exist
  before it does, so operand indices are smaller; this is proved of every graph the constructors build.
* **Findings.** Where the English claim is false of the code, the model proves `…_refuted` with a
  witness and a `…_partial` theorem with the condition under which the claim does hold.

## Per-property plan

| id | modelled | proved by |
|----|----------|-----------|
| C01 | `Slice` ctors, `adjust` over Z with int32 range checks | Python `slice.indices` spec; case analysis + lia |
| C02 | `Slice(int)`, overflow as UB outcome | theorem with range hypothesis; refuted at INT_MAX |
| C03 | view = (matrix, row slice, col slice); slice-of-slice arithmetic | composition lemma, induction over nesting depth |
| C04 | `block/segment/row/col` on matrices and views | index arithmetic |
| C05 | view assignment loops over storage | loop invariant with frame; overlap refuted |
| C06 | matrix ops as loops over row-major storage | entrywise spec via sums |
| C07 | `*=` loop | proved when right operand distinct; aliasing refuted |
| C08 | nested `block()` assembly loops | invariant on offsets; empty list refuted |
| C09 | closed forms n=1..4 | `field`; 1x1 with wide B refuted |
| C10 | iterators, `operator[]` | bijection with row-major order |
| C11 | `PoolResource` state machine | invariant over all histories |
| C12 | same with byte sizes | refuted with mixed sizes; partial for uniform size |
| C13 | ref-count heap with handles, `inc/dec_ref_count` | invariant: count = in-edges + handles |
| C14 | copy assignment order | refuted for owned source; partial otherwise |
| C15 | `dec_ref_count` explicit stack loop | measure + reachability |
| C16 | `topological_sort` both passes with `scratch` counters | DAG invariants |
| C17 | `update_values`, constructors | topological order ⇒ evaluation relation |
| C18 | `set_value`/`value` cached graph | history induction |
| C19 | all smart constructors | value preservation on definedness domain (R) |
| C20 | same, XR instance | refuted witnesses |
| C21 | `type()` assignment in constructors | polynomial degree spec, induction over construction |
| C22 | `append_triplets` | reverse/forward duality invariant + Coquelicot `is_derive` |
| C23 | `grad_l/grad_r` per operator | `is_derive` per operator |
| C24 | Abs/Max/Min/Sign | one-sided slopes |
| C25 | `gradient_tree` (`grad_expr_*` building graph) | simulation with numeric adjoints |
| C26 | temporaries of sort/gradient_tree | restore theorem |
| C27 | `Jacobian` caching by row type | type soundness ⇒ cached rows exact |
| C28 | `set_value` on constants | refuted |
| C29 | `Hessian` = Jacobian of gradient_tree | C22+C25 at graph level; `JacUserSpec.v` gives the user-level meaning of programs with Jacobians and Hessians and `JacUser.v` proves the simulation (each object's nodes stand for the written expression); symmetry by a direct induction over the expression (`SmoothSym.v`, mixed derivatives of each operation, no appeal to Schwarz) |
| C30 | repeated wrt | refuted |
| C31 | `make_constraints`, comparison ops, bool conversion | per-shape spec |
| C32 | `decision_variable`, `symmetric_decision_variable` | invariants |
| C33 | Problem bookkeeping | history induction |
| C34 | solve + solver loops | refuted for constant problems; partial elsewhere |
| C35 | solve dispatch | case analysis |
| C36 | callbacks list + FR callbacks | proved for main loop; refuted within restoration |
| C37 | `get_bounds` | fold invariant over constraints |
| C38 | `get_bounds` assertion | refuted |
| C39 | `project_onto_bounds` | real arithmetic |
| C40 | `ProblemScaling` | real arithmetic |
| C41–C42 | `kkt_error`, `unscaled_kkt_error` | vector identities/norms |
| C43 | fraction-to-the-boundary | list induction |
| C44–C45 | `Filter` | history invariants; NaN refuted |
| C46 | `RegularizedLDLT::compute` with factorization oracle | measure + postcondition |
| C47 | `append_as_triplets` | list induction |
| C48–C49 | `compute_p_n`, restoration problem | real arithmetic, matrix structure |
| C50–C56 | solver loops as state machines with oracles | loop invariants, termination measures |
| C57 | `multistart` | refuted; partial |
| C58–C62 | OCP | induction over horizon; polynomial identities |
| C63–C64 | multiplier estimate, local infeasibility tests | vector arithmetic |
| C65 | diagnostics printing selection | refuted for equality |
| C66–C68 | scope_exit, profiler, spy | history induction, decoder |
| C69 | two thread-local pools | refuted by a four-step history |
| C70 | ScopedProfiler ownership | invariant over operation sequences |
| C71–C72 | `power_of_10`, `histogram` | real arithmetic |
| C73 | where restoration starts | real arithmetic; complementarity refuted |
| C74 | `fraction_to_the_boundary_rule` over binary64 | rounding-error induction over components; overflow and underflow refuted |
| C75 | solver loops over binary64 | halving is exact above 2^-1021; infinite step refuted |
| C76 | barrier update over binary64 | monotonicity of rounding; tau = 1 refuted |
| C77 | `RegularizedLDLT::compute` over binary64 | monotone sequence of regularizations, trial bound |
| C78 | `ProblemScaling` over binary64 | rounding-error bound of a quotient |
| C79 | `Filter` over binary64 | generic lemmas instantiated |
| C80 | the matrix callbacks of `Problem::solve` composed with the graph, Jacobian and Hessian models (`ProbSolveMade/Deriv/Dims/Kkt`) | smooth points form an open set on which every node has first and second derivatives (`SmoothGraph`); the symbolic adjoints are graphs of the derivatives; one invariant over the whole history |
| C81 | the same, composed with the solvers (`ProbSolveKkt2`) | C80 turns the solver-level C34/C50 into statements about the user's Lagrangian |
| C82 | solve() over the extended reals with fuel (`TermFine`, `ProbSolveTotal`) | C55's settling, plus: shapes and signs are invariants, so no assertion fails; the start's gradient is finite or the solver leaves at once; the write-back fits |
| C83 | bound detection as solve() runs it on the user's graphs (`LinearX`, `ProbSolveBounds`, `ProbBounds`) | a node of type LINEAR or CONSTANT is affine in the decision variables or undefined everywhere; so the stored Jacobian row is the coefficient vector and C37 applies to the user's relations |
| C84 | solve() on a problem whose start is already a solution (`ProbEarly*`) | the KKT error at the start is computed from the user's derivatives (C80) and is within the tolerance, so the loop is not entered; a second solve() follows from C81 |
| C85 | answers of solve() as a whole, over all three solvers (`EarlySpec.possible`) | from what each status of each solver means (C50-C52) and which solver runs (C33); finiteness at the start from C80 |
| C86 | an OCP, then any further statements and solves, then SUCCESS (`OcpSolve*`) | what the generated constraints say, for any reading of `==`/`<=` (C58-C61 with the comparison as a parameter), and C81 |
| C87 | every solver's whole run, restoration included, over the extended reals (`Finite*`); assumed: the linear solver and the multiplier estimate answer numbers with numbers | invariant: the iterate is finite with positive slacks and inequality multipliers, and the problem functions are finite there (from C80); division only by the positive quantities; then C81 and C86 apply without their side conditions |
| C88 | the runs of C87 on problems whose user-written functions are convex / affine / concave along segments between points the decision variables can take (`Convex*`) | subgradient inequality from the partial derivatives of C81's KKT point, by restricting to the segment; summed with the multipliers |
| C89 | runs of Newton's method on problems whose cost is a definite quadratic in the decision variables (`Quad*`); the hypothesis that definite systems are solved exactly is met by an exact LDL' elimination inside the regularization of C46 (`Ldl*`, standing for Eigen's factorizations) | the step lands where the gradient vanishes; the full step satisfies Armijo with an empty filter; Schur complements of definite matrices are definite |
| C90 | runs of Newton's method with exact LDL' factorization on any smooth cost (`Down*`) | pivots become positive once the regularization exceeds the Hessian's bound, which the retries reach; positive pivots make the step a descent direction; a step is accepted by Armijo, or by the fallback on the KKT error |
| C91 | one SQP run on a definite quadratic cost with independent affine equalities (`Saddle*`, `LdlSaddle`) | the saddle point matrix has n positive and k negative pivots, so it is not regularized; the full step satisfies the KKT conditions; the filter accepts it (violation 0, or Armijo on a feasible start); infeasibility detection stays silent because A' is bounded below |
| C92–C94 | subscripts, item assignment and iteration of the Python bindings (`Py*`) on top of the views of C03–C05; CPython's `PySlice_Unpack`/`AdjustIndices` as documented | a block reached by any chain keeps start in range and a bounded step, so composing slices neither overflows nor leaves the matrix; negative rows with slices, out-of-range ints and overlap refuted |
| C95 | keyword arguments of the Python `solve()`; conversions of Python objects are parameters | induction over the argument list |
| C96 | LOCALLY_INFEASIBLE from solve() on convex problems (`Infeas*`) | the violation times itself is a convex combination of the constraints with slopes below 1e-6, so where it vanishes is far away; a feasible problem reported infeasible (`_refuted`); answers of feasibility restoration are left out |
| C97 | rate of convergence of Newton's method (`PathDeriv`, `Rate*`) | chain rule to second order along segments gives Taylor bounds from `curved`; each accepted step satisfies the Armijo condition of C90 with a step no shorter than half of what the bounds allow, so the gap to the minimum shrinks by `shrink m L`; slopes of a nearly minimal point are small, which bounds the number of iterations |
| C98 | decision variables during solve(), callbacks that read them, exceptions (`Cb*`) | the solvers again with what the decision variables hold at each evaluation and with a callback's answer go / stop / throw; equal to the solvers of C35 when no callback throws, by an invariant that they hold the iterate at every call |
| C99 | signals in the Python bindings (`PySig*`, `PyDuring*`) | the two Python classes, their callback lists, and the state of the process with handlers that may raise at a check; solve() is that of C98 |
| C100 | second derivative test for convexity (`Hess*`) | Taylor bound of C97 with modulus 0 gives the tangent inequality, hence convexity; conversely a second derivative along a line is nonnegative because midpoints lie below chords; relations are read as costs of their own; with C80 for the computed Hessian and C88 for solve() |
| C101 | NumPy arrays as operands, assigned values, and arguments of `set_value` and the constructor in Python (`Np*`): `try_cast.hpp`, `__array_ufunc__`, the operators taking arrays; memory of arrays with reads outside it undefined; NumPy's views and dispatch as documented | induction over the chain of views gives each element's address; then C06 and C93 |
| C102 | Chained comparisons in Python (`Chain*`): `__bool__` of constraints between the links, as the language reference says; `subject_to` and `bounds` as in C31 | induction over the chain, each step an instance of C31 |
| C103 | Constructors of VariableMatrix from nested lists, spans and diagonal matrices, `identity()`, `zero()`, `one()`, `constant()` (`Make*`) | invariant of the two loops that append entries |

## Not modelled

The rest of the Python bindings (constructors from integer arrays, operators on scalars, printing, exceptions' types; of a
conversion from a Python object only whether it succeeds); `function_ref.hpp`, `print.hpp`, `symbol_exports.hpp`, `empty.hpp`
and `sleipnir_base.hpp`, which have no behaviour of their own or only print;
text formatting of diagnostics; Eigen internals (factorizations are oracles, vectors
and matrices are exact mathematical objects); compile-time concepts; floating-point rounding outside C74–C79; performance.

## Trusted base

Coq 8.16.1 kernel and the axioms listed by `Print Assumptions` under each theorem (only Coq standard
library axioms for the reals: `ClassicalDedekindReals.sig_forall_dec`, `sig_not_dec`,
`FunctionalExtensionality.functional_extensionality_dep`, and `Classical_Prop.classic` where Coquelicot or the Taylor
bounds use it; theorems about data structures only are closed under the global context). The faithfulness of the transcription is by inspection.
