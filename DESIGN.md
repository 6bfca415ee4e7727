# Formal model of TobiaMarcucci/pympc in Rocq (Coq 8.16.1)

* `properties.jsonl` - the properties; `MANIFEST.json` - their status and theorems; `ASSUMPTIONS.md` - the axioms
  that `Print Assumptions` lists for each theorem.
* `rocq/theories` - the model, the specification, the proofs.  Build: `coq_makefile -f _CoqProject -o Makefile && make -j4`.
* `seeded/LOG.jsonl` - wrong programs tried against the theorems.
* `tools/` - generators of the files above (none of them is trusted: they write Coq text that the kernel checks, or JSON).

## 1. Trusted base

1. **Coq's kernel**, 8.16.1, with no check switched off and no plugin.
2. **Axioms**: only axioms of the standard library, those of its classical reals: `ClassicalDedekindReals.sig_forall_dec`,
   `ClassicalDedekindReals.sig_not_dec`, `FunctionalExtensionality.functional_extensionality_dep`,
   `Classical_Prop.classic`; the three theorems C98_law, C98_notebook and C98_cart also use the standard library's
   axioms of choice, `ClassicalUniqueChoice.dependent_unique_choice` and `RelationalChoice.relational_choice`.  The list per theorem is in `ASSUMPTIONS.md`.  No axiom is added.
3. **The reading of the Python source**: the code is not executed; each definition of the model cites the lines it stands for.
4. **The specification** (`Spec*.v`), which says in terms of vectors, sets and trajectories what the properties mean.
5. **The contracts of external libraries** (section 3), explicit hypotheses of the theorems that use them.

## 2. Numbers, arrays, exceptions

* Numbers are exact reals.  Floating-point rounding is modelled only for `contains`, the simulations (`Round.v`, C93, C94) and the evaluation of the explicit controller (`RoundExpl.v`, C99): every operation is followed by a rounding function with a
  bounded relative and absolute error, sums of products are evaluated in any order, in blocks, with or without fused multiply-add; `Round64.v` takes IEEE binary64 from the Flocq library (whose lemmas used here rest on the same four axioms). Overflow, `nan` and `inf` are not modelled.  The tolerances written
  in the code (1e-5, 1e-6, 1e-7, 1e-9) are in the model with their values, and many of the refutations are about them.
* One-dimensional arrays are `list R`; two-dimensional ones a number of columns and a list of rows, so that arrays of
  shape `(0, n)` keep their width.  The total operations on arrays truncate where numpy raises; the model goes through
  operations that raise (`np_...`), or the theorem has shape hypotheses.  Simplification: where numpy would broadcast arrays of size one, the model raises `ValueError`.
* Arrays hold floats, except in `C07_integer_storage_refuted`.
* Python results are `Ok v | Err e` with the class of the exception.  Methods that change an object return the object after
  the call also if they raise.  Messages are not modelled.  Loops without an obvious bound have fuel, whose exhaustion is the error `OutOfFuel`;
  theorems about results hold for every fuel, and termination is a separate statement.
* **Python 3** is assumed: `None > tol` raises `TypeError`.  (`.travis.yml` and the notebooks say 2.7, where `None` is smaller than
  every number; `setup.py` asks for scipy releases of Python 3.)  With Python 2 the refutations by `TypeError` (C12, C29) would become wrong results.

## 3. External functions

The theorems quantify over every library that meets the contracts they mention (`Numpy.v` unless said otherwise).

| call | contract | shown to be satisfiable by |
|---|---|---|
| `scipy.optimize.nnls` | `nnls_ok`: an exact minimiser and its residual norm | `Oracle.v` |
| `numpy.linalg.pinv` | `pinv_ok`: two Moore-Penrose equations | `Oracle.v` |
| `numpy.linalg.cholesky` | `chol_ok`: exact factor for positive definite matrices, LinAlgError for other symmetric ones | `Oracle.v` |
| `numpy.linalg.inv`, `solve` | `inv_ok`, `solve_ok`: exact, LinAlgError exactly for singular matrices | `Oracle.v` |
| `numpy.linalg.svd`, `matrix_rank` | `svd_ok`: the rows of V' beyond the rank are an orthonormal basis of the kernel | `Oracle.v` |
| the six above together | `exact_np` | `Oracle.v` (`np0` in `SolverThms.v`) |
| `numpy.linalg.qr` | `qr_ok M`: an exact decomposition of the matrix at hand | `ContractThms.v`, for every matrix (C53_contract) |
| `scipy.spatial.ConvexHull` | `hull_ok`, `hull_total`: unit normals, facets touching points, the hull; raises only for points on a hyperplane | `HullOracle.v` (Fourier-Motzkin) |
| `numpy.random.rand` | `rand_ok`: the length only; any values | `HullOracle.v` |
| `scipy.linalg.expm` | limit of the exponential series | `ZohThms.v` |
| `scipy.linalg.solve_discrete_are` | a positive semidefinite solution of the equation | `DareThms.v`: exists for every controllable system (C32_exists), unique if Q is positive definite (C32_unique) |
| `numpy.linalg.eig` | none where only the comparison of the largest modulus with 1 is used; in C70, C75, C76, C91 `eig_max_ok` (`WorkThms.v`): the largest modulus is that of some complex eigenvalue; in C92 `spectral_radius` (`SpecEig.v`): it is the largest one | `np_spec` (`SpectralThms.v`), all sizes (C92_libraries) |
| `ConvexHull(points).vertices` in the plane | `hull2_ok` (`Plots.v`): indices of points that form a closed path around the hull, counterclockwise; `QhullError` only for points on a line | `PlanarThms.v`, for every list of points (C72_contract) |
| `HalfspaceIntersection` | `halfspaces_ok`: in dimension two or more, if the given point is strictly inside and the set is bounded, the extreme points in some order, possibly repeated; `QhullError` if the point is not strictly inside (nothing assumed for unbounded sets) | `VertOracle.v`, enumeration of the active sets |
| Gurobi | `gsol_ok`, `gsol_duals`, `gsol_basis` (`Gurobi.v`): exact optimum, KKT multipliers, tight basis | `ContractThms.v`, for every program (C60_contract, C60_integer_contract) |
| sympy | `sfloat_ok` (`Symbolic.v`): `float(expr)` returns the value of an expression without variables; derivative and substitution are modelled | `SymThms.v` |
| `scipy.spatial.Voronoi` | `ridges_ok` (`VorThms.v`): the pairs of neighbouring points suffice to describe the cells | all the pairs of points (last example of `VorThms.v`) |
| drake (examples, `solvers/drake.py`) | `drake_ok` (`ExThms.v`), `k_ok` (`Drake.v`): optimum of the program built | classically, for every program (a minimiser exists or not); the examples of C57, C65-C67 |

## 4. Which code is modelled where

| Python | lines | model | remarks |
|---|---|---|---|
| `geometry/utils.py` | all | `GeomUtils.v` | the random offset of `plane_through_points` is an argument |
| `geometry/polyhedron.py` `Polyhedron` | 15-825 | `Polyhedron.v` | left-hand sides are two-dimensional; programs are solved with the default solver |
| | 88-100, 127-139, 338-360, 921-939 | `Symbolic.v` | expressions: `+ * / ** sqrt sin cos exp` |
| | 826-877, 941-1131 | `Projection.v`; 826-854, 941-1000 with integers as dimensions in `ProjIndex.v` | nonnegative dimensions in `Projection.v` |
| | 879-919 (`plot`) | `Plots.v` | drawing commands are recorded in order; colours and other options are not modelled; negative residual dimensions are not covered |
| the same, sharing of arrays | 20-86, 102-125, 141-199, 379-466, 578-604, 643-686 | `Heap.v` | addresses and views; cached attributes by value |
| `dynamics/utils.py`, `discretization_methods.py` | all | `Dynamics.v` | |
| `dynamics/discrete_time_systems.py` | all but the symbolic part | `Dynamics.v`; simulations with rounding in `Round.v` | the printed progress of `mcais` is not modelled |
| | 233-283, 393-432, 753-775 | `Symbolic.v` | |
| `optimization/solvers/pnnls.py` | all | `Pnnls.v` | |
| `optimization/solvers/gurobi.py` | all | `Gurobi.v` | parameters of Gurobi are not modelled |
| `optimization/solvers/drake.py` | all | `Drake.v` | not reachable through `programs.py`, where its import is a comment; zero rows are ordinary constraints |
| `optimization/programs.py` | all | `Programs.v` | |
| `optimization/parametric_programs.py` | 1-532 | `Mpqp.v`; 292-306, 349-364, 442-486 with rounding in `RoundExpl.v` | `get_feasible_set` in `Projection.v`; shapes of the blocks coherent |
| | 534-624 | `Hybrid.v` | |
| `control/controllers.py` linear part | 11-187, 684-748 | `Controllers.v`; 136-187 with rounding in `RoundExpl.v` | |
| | 188-250 (plots) | `Plots.v` | what matplotlib's contour does with None is not modelled |
| `control/controllers.py` hybrid part | 252-680 | `Hybrid.v` | Gurobi parameters are not modelled |
| `examples/pwa_from_urdf/utils.py` | 19-206 | `Voronoi.v` | the Taylor expansion of the plant is an argument |
| | 208-388 | `ExampleCtrl.v`; `ExampleState.v` (256-347, one program kept between calls) | solver options and the drake system wrapper are not modelled; `plant_input[:] = None` would be nan |
| `plot.py` | all | `Plots.v` | as above; data are lists of vectors |
| `examples/linear_mpc.ipynb` | the calls in order | `Workflow.v` | |
| `examples/disjunctive_inequalities.ipynb` | the cells with constraints | `Disj.v` | numbers are arguments |
| `examples/maximal_constraint_admissible_set.ipynb`, `examples/hybrid_mpc.ipynb`, `examples/hybrid_mpc_2.ipynb` | the calls in order | `Notebooks.v` | numbers are arguments |
| `examples/hybrid_mpc.ipynb`, `examples/hybrid_mpc_2.ipynb` | the cells of the systems and of the domains | `Walls.v` | numbers are arguments; plots and meshcat not modelled |
| `examples/cart_pole_dynamics.m` | 1-80 (93 repeats 70-80 with numbers) | `CartDyn.v` | MATLAB; parameters are numbers, not symbols; `simplify` left out; `M\b` is Cramer's rule |
| `examples/pwa_from_urdf/cart_pole_from_urdf.ipynb` | the calls up to the controller | `CartPole.v` | numbers are arguments; urdf parser, simulator, logger, video are not modelled |
| `pympc/test` | deterministic assertions | `UnitTests.v` | random tests and Gurobi tests left out |

Specification: `Spec.v` (sets, programs), `SpecGeom.v`, `SpecDyn.v` (trajectories), `SpecMpc.v` (optimal control), `SpecProg.v`, `SpecSym.v`, `SpecVert.v` (extreme points), `SpecLoop.v` (closed loops), `SpecPlot.v` (curves and polygons), `SpecDisj.v` (unions of polytopes).
Proofs: `*Facts.v`, `*Thms.v`.  `Props*.v` contain the property theorems only, each proved by `exact` and followed by
`Print Assumptions`, and next to them the examples showing that the hypotheses can be met.

## 5. What the proofs found

"Refuted" means: the literal property is false of the model, a theorem `..._refuted` gives the witness, and the strongest true
version is proved beside it.

Wrong results
* `add_*(..., indices)`: indices select a set of columns, so that their order is ignored and negative ones are too (C02).
* `contains` with two or more equalities uses `abs(max(...))`: points far below an equality are accepted; without inequalities it raises (C06).
* `normalize` on integer arrays truncates (C07); it changes `bounded` cached before (C03); if an object shares `A` but not `b`
  with another one, normalising one changes the set of the other (C55).
* The big-M cell of the disjunctive notebook writes A_2 x <= b_2 + M delta where its text says M (1 - delta): what it draws is larger
  than the big-M relaxation, and its constraints with delta = 0 are infeasible (C74).
* In the hybrid notebook `simulate` uses the first mode up to 1e-7 beyond its domain, where the optimal run uses the second (C76).
* Equalities of domains and terminal sets are ignored by the controllers, `mcais`, the hybrid controller and the Voronoi cells (C50, C47, C56).
* The cross terms of the condensed cost use Q, not its symmetric part (C37).
* `linearly_independent_rows` may return fewer rows than the rank (C53); `same_rows` is False for equal matrices with duplicate rows (C52).
* `explicit_solve` explores only from the origin (C43); beyond a facet it flips the number of the row of the region, not of the constraint (C63: guesses
  are verified, a wrong one leads to a QP); returns no region where active constraints are dependent.
* `explicit_solve` jumps over regions thinner than its step, also with one parameter (C43_gap_refuted; how wide a gap can be is bounded in C43_one_parameter_partial).
* `ExplicitSolution.u` jumps by up to the change of u over 1e-7 at the border of regions, because of the lookup tolerance (C79).
* `explicit_solve` need not end: the QP solver does not report constraints with multipliers up to 1e-7 as active, so that a point outside a region
  can lead to the same region again, and then to the same point again (C77).
* The drake wrappers recompute multipliers from the nearly active constraints: wrong signs, wrong values, LinAlgError (C65, C66).
* The example controller passes Q as terminal cost (`utils.py:233`) and fails for one mode (C57).
* The cart-pole notebook holds each input for .1 although its model is discretised with h = .05: there are plants, equal to their linearizations, for
  which the loop does not converge because of this (C86). With one linearization point its step is a division by zero.
* `plot_state_space_trajectory` puts the labels at components 0 and 1 whatever `dim` is (C71).
* A polytope thinner than the tolerance is not drawn, with the message for empty ones (C72); the vertices of polyhedra with a row of zeros, and of
  polyhedra whose inequalities imply an equality, cannot be computed (C68, C72: None or `QhullError`).
* The Riccati solution for semidefinite Q need not be unique; the least one need not stabilise (C32).
* `convex_hull_method` drops facets within a relative 1e-5 (C17); a negative or repeated first residual dimension makes it raise TypeError, because the column stays in the list of dropped dimensions and the linear program becomes unbounded (C17_index_errors); `_expand_simplex` normalises `b` in place.

Exceptions
* `is_included_in` and `is_well_posed` raise TypeError for empty or unbounded intersections (C12, C29).
* `minimal_facets` of a polyhedron that is one point with equalities raises ValueError (`matrix with 0 columns`).
* Programs without constraints make the explicit lookup raise (C41); column right-hand sides are accepted late or leave half of `add_bounds` done (C15).
* An empty list of bounds makes the time plots raise UnboundLocalError, a NameError (C71).
* Naming the solver drake raises NameError (C25).  `Polyhedron(A, b, C, d)` accepts a C with another number of columns (C36); `check_affine_system` accepts `h = 0`
  although its message asks for a positive step.

Tolerances (small data are misjudged; the exact thresholds are in the theorems)
* `empty`, QP infeasible: points of norm above 1e7 do not count (C08, C22, C39); LP (C19); `bounded` (C09); redundancy (C10, C16, C30); Gurobi drops entries below 1e-9 (C24);
  big-M constants of unbounded or empty domains (C49); the lookup of regions (C42; the violation and the loss of optimality within the lookup tolerance are bounded in C42_tolerance_*).

Termination: `mcais` does not terminate for marginally stable systems and for sets with the origin on the boundary (C31).

## 6. How each group of properties is proved

* C01, C02, C05, C14, C15: state machine of `Polyhedron`, induction over histories of operations.
* C03: invariant "cached value absent or right for the current set" over histories of reads and changes.
* C04, C05, C07, C36: algebra of stacked matrices.
* C08, C21, C22: the QP solver on top of an exact NNLS (Bemporad's reduction to a least-distance problem).
* C18-C20, C23: the LP solver on top of NNLS; strong duality is derived from the optimality conditions of NNLS, not assumed.
* C09: Stiemke's theorem, from the same source.
* C06, C10-C13, C16: loops over linear programs, induction on the list of facets.
* C17, C54, C62: invariant of the convex hull method; compactness of the error bound replaced by the count of distinct vertices.
* C65-C67: the program that the drake model denotes, multipliers from duality and their uniqueness.
* C24, C25, C60, C61: the program that the Gurobi model denotes; comparison of the solvers.
* C26-C29, C36: induction on horizons; slices of block matrices.
* C30, C31: loop with fuel; invariants; termination from powers of A.
* C32, C33, C45, C46, C58: completion of squares, induction on the horizon.
* C34: partial sums of the exponential, uniqueness of solutions of the differential equation. Existence of solutions by differentiating the exponential series term by term (second-order remainder), so the values x(h) in C34 exist and are unique (`OdeThms.v`).
* C35: expression language with differentiation (derivative proved right where the expression is regular). Composed with C28 and C34 for the systems built from symbolic expressions (`SampThms.v`).
* C37-C39, C44: condensed problem versus trajectories.
* C40-C43, C59, C63, C64: KKT conditions, exact description of regions, neighbourhoods of facets.
* C77: distinct active sets, of which there are 2^m; measure (points waiting, active sets left).
* C78: the closed-loop argument of C44/C45 for any feedback that returns the first optimal input; agreement of both controllers by uniqueness of the optimum.
* C79: pieces are affine, finitely many closed regions; convexity from the joint quadratic form, for the controller from the sign of the cost.
* C80: the finite-horizon program with the Riccati terminal cost against infinite signals: splice an input signal with u = K x, telescope, and bound the time a signal of finite cost stays away from the origin.
* C81: minimizer and multipliers exist wherever the program is feasible (run of the solver with a small enough tolerance); Caratheodory reduces the support of the multipliers to independent rows, so the region of the support contains the parameter; Lipschitz along a segment, cut at finitely many regions, with the maximum of the constants of the pieces.
* C82, C83: transport of admissible and optimal trajectories along a bijection of states and inputs; the condition for None (C39) is stated in terms of costs only, so it transports too.
* C84: runs of the PWA system and trajectories of the linear system with the same inputs; uniqueness of the optimum (C39, C48).
* C85: the closed-loop argument of C69 for any function that returns optimal runs or None where there is none (`right_answer`), and the exactness of the drake encoding (C76).
* C86: the notebook composed from C28 (zero-order hold), the Voronoi partition of points on an axis, and C85 with the origin as terminal set; a plant dx/dt = u for the refutation.
* C87: invariant of the object (length of the stored bounds); every call overwrites all bounds before it solves.
* C88: the projection (C54) and the closed loop (C44, C46, C58) meet in the set of states with an admissible run. Costs below the solver threshold are a hypothesis.
* C89: `contains` as a condition on the residuals; residuals of a combined polyhedron are concatenations (`MembOpThms.v`).
* C90: induction on the inputs, for all arguments including those that raise (`AgreeThms.v`).
* C91: the cells are evaluated with symbolic parameters, the modes compared with one explicit spring model; controllability by an explicit inverse of the reachability matrix (the tip of the pole is a flat output); the loop from a pointwise version of C76 (`C76_along_partial`), which asks the modes to agree only at the pairs met (`WallThms.v`). Witnesses of all hypotheses with the numbers of the notebooks: `C91_example`, `C91_cart_loop_example`.
* C92: the fundamental theorem of algebra is proved (`FtaThms.v`: minimum of the modulus, descent along a root of a complex number). Krylov vectors are dependent, so a product of factors A - z annihilates every vector (`EigThms.v`); this gives eigenvalues, their number, and convergence of trajectories by a recursion over the factors (`SpectralThms.v`). `SpecEig.v` holds the definitions.
* C93: the error of a sum of products is bounded by induction on the order of evaluation (`dot_err`); `contains` is then squeezed between exact evaluations with tolerances tol - E and tol + E. `C93_far_refuted`: with coordinates near 10^18, floats all of them, a point of the polyhedron is rejected and one that violates the inequality by 1 accepted. Data are floats exactly as stored; the concatenation of x and u does not round.
* C94: each step is an exact step plus an error; the errors go through the exact dynamics. For a stable matrix some power halves the largest entry (from the spectral radius, C92), which gives bounds for all times. `simulate_closed_loop` computes A + B K anew at each step, possibly in another order (`fl_closed_step` allows it); its relative error acts as a perturbation of the matrix. For piecewise affine systems the hypothesis is about the exact trajectory only: its distance from the boundaries of all domains.
* C95: the second derivatives of the Lagrangian are found by uniqueness of derivatives, not by computing with the expressions of the script (they are large). `linearize` equals the constants of the notebook. `ElasticThms.v` treats the three modes together: `SpecCart.v` gives the cart-pole between two elastic walls (potential k/2 max(0, penetration)^2), and the three-mode vector field solves its Euler-Lagrange equations at all states (C95_walls) and conserves its energy across contacts (C95_conservation).
* C96: the plant is a relation `F x u y` (SpecCart's flow of the cart-pole, `quadratic_plant` in the example) of which only the derivative at the origin is known (`linearizes`); the controller is the model of C44/C69. The hybrid statements run to a finite time T because the contract of Gurobi (`gurobi_solves`) demands data without entries below 1e-9, which no infinite convergent run satisfies. The radius comes from an existence proof (equivalence of norms); C96_level gives the explicit region instead.
* C97: the plant is the differential equation dx/dt = f(x, u) with the input held between the samples (SpecHold.v: `held_solution`, `sampled_run`); only the derivative of f at the origin is assumed (`field_derivative`), no Lipschitz condition, and the statements are about all motions, so existence and uniqueness of solutions are not needed. The matrix exponential is assumed exact (`is_expm`), as in C34. Between the samples the bound is the one of C97_between (Gronwall). C97_cart uses the nonlinear equations of cart_pole_dynamics.m (`cart_flow`), whose controllability under the hold is proved for all positive parameters and all h. The time of the computation of the input and of its application is not modelled: the input of sample k acts from k h on.
* C98: with the terminal set {0} (the controllers of the notebooks, C86) C96 and C97 do not apply: the terminal set has no interior. SpecOrigin.v states what replaces the LQR gain: the least-cost run to the origin in N steps is linear in x (`origin_law`; existence in C98_law, from the critical points of the cost on the linear space of steering inputs, by choice on the states). Near the origin no constraint is active and no other mode pays, so feedback is this gain; the rest is C97. The reachability of the origin in N steps is a hypothesis of C98_law and C98_notebook, proved for the cart-pole and N >= 4 in C98_cart. `sharp_gaps` (no big-M constant within 1e-6 above zero) is assumed, as in C86; C98_cart_example (CartNumThms.v) checks it and every other hypothesis on a four-state cart-pole with two modes.
* C99: `RoundExpl.v` rounds the lookup and the input law of `ExplicitSolution` and the slicing of `feedback_explicit`; the stored arrays are the reals their floats denote, so the off-line computation of the regions stays exact, and V(x) is left out (it is discarded by `feedback_explicit`, only its second lookup is kept; its value is C103). The region bound of C42 is repeated with a general tolerance (`region_tolerance_by`), the input error enters the cost through the quadratic expansion (`cost_near`), and one constant serves the finitely many regions (`common_constant`). `C99_unrounded` and `C93_unrounded`: with rnd the identity the relations are the exact functions, errors included. `C99_far_refuted`: far from the origin float64 misses regions and accepts wrong ones.
* C100: the optimal cost is convex (C79_mpc_convex), so a margin r around the states of cost at most rho bounds its growth under a disturbance by M/r per unit; the decrease of C45 and the quadratic bounds on both sides (1/2 x'P x in the terminal set, the level rho outside) turn it into a contraction up to the disturbance. The margin is a hypothesis of `C100_robust` and cannot be dropped (`C100_margin_refuted`: the undisturbed loop may touch the boundary of the set of states with a solution); `C100_local` has none, but holds near the origin only. The neighbourhood shrinks like the square root of the disturbance. Disturbances are arbitrary, so errors of the model, of the simulation and of the actuator are included as far as they stay below the bound.
* C101: explicit_solve starts at the origin with the empty active set, whose law is the unconstrained minimizer; with the P and K of solve_dare that is u = K x, feasible on an invariant terminal set, so the first stored region contains it (C101_first; no assumption on the table).  In the ball inside the terminal set every exact residual of that region is at most 0, so for roundings with residual error below 1e-7 the lookup stops there; errors of the law and of the state update are proportional to u + eta ((1 + u)^n - 1 <= 2^n u for u <= 1), and C100_local with that disturbance bounds the run.  The precision u0 is existential: it depends on the problem and is not computed, so nothing is claimed about binary64 for a given controller.  Existence of rounded results: C101_runs.  The stored arrays and K are those of the exact off-line computation.
* C102: the lookup accepts a state up to 1e-7 outside a region, where the law of that region is neither optimal nor admissible (C42_tolerance_refuted).  The error is linear in the tolerance: a violated residual of the region is a perturbation of a multiplier or of a right hand side, both become extra parameters of a wider program, and its minimizer is Lipschitz (C81).  So feedback_explicit is within c (1e-7 + E) + F of the optimal input, with E and F the rounding errors, and without rounding within c 1e-7 of feedback wherever both answer (C102_controller, C102_exact; a table without inequalities never answers, the lookup raises on the empty maximum).  C102_loop puts this into C100_robust: the explicit controller in the loop is the on-line one under a disturbance, so the loop contracts to a neighbourhood proportional to the tolerance, as long as the lookup answers (coverage: C43, C59) and the resulting disturbance is below the d0 of C100.  C102_value and C102_jump: the value reported is within c tau (1 + |x| + tau) of the optimal one, and the jumps of the lookup function (C79_lookup_refuted) are at most proportional to the tolerance.
* C103: RoundValue.v adds the evaluation of V(x) = 1/2 x'Vxx x + Vx'x + V0 in rounded arithmetic, left out of RoundExpl.v: the vector x'Vxx, its product with x, the halving and the two sums are rounded, the dot products in any order.  SpecValue.v states the bound (2n + 3 roundings per term, early underflows multiplied by entries of x).  The two lookups of feedforward_explicit, for u and for V, are separate evaluations and may in principle return different regions; C103_feedforward relates both to the relations of C99.
* C104: SpecHyb.v defines when one switched system follows another step by step in other coordinates; the results follow from the optimality of the returned runs (C48) and inherit its hypotheses: domains and terminal set without equalities, Gurobi exact on the two programs, no nonzero entries below 1e-9. Unlike the linear controller (C83) the hybrid one has no threshold on the cost, so weights may be scaled without changing where None is returned.
* C105: both hybrid controllers return optimal runs of the same problem (C48, C57), so they return None at the same states and the same cost. For a fixed sequence of modes the condensed problem is strictly convex in the inputs (R positive definite), so two optimal runs with equal modes are equal; only a tie between mode sequences makes the inputs of two solvers differ, and C105_tie_refuted shows such a tie: two exact solvers of one program make feedback return -1/2 and 1/2. The class `Controller` of the examples is not included: it replaces P by Q (C57).
* C106: laws of mcais, from the exact characterisation C30_mcais_exact_partial and from C31_mcais_halts_iff. `clear_cut` is the hypothesis of the former (no redundancy within 1e-7); each law asks it only of the inputs whose result must not contain too many points. Termination needs no such hypothesis. C106_description_refuted: two descriptions of [-1, 1] with different results. C106_product: two systems side by side; the hypothesis on the product follows from that on the factors.
* C52 and widths: same_rows does not compare the numbers of columns; np.allclose broadcasts a matrix with one column and otherwise raises. C52_widths covers matrices of different widths, C52_widths_refuted shows that they can be reported equal.
  The local stability theorem holds for every plant differentiable at the origin; it uses the perturbation lemma of C94. The plant is the explicit Euler discretization of the nonlinear equations, the one the notebook uses
  for the linear ones; the exact solution of the nonlinear equations between two samples is not treated. Derivatives are computed with Coquelicot (its lemmas used here rest on the axioms of the standard library listed above).
* C47-C49, C57: big-M encoding and its program.
* C51-C53: small functions.
* C55: refinement of the value model by a memory of addresses.
* C56: bisectors of generators.
* C68: enumeration of active sets; extreme points and hulls in coordinates of the affine hull.
* C69, C70, C75, C76: induction on time with the shifted solution as candidate; Lyapunov function.
* C74: splitting a convex combination into its two halves; no recession directions in polytopes; composition with C17.
* C71-C73: induction on the data; order of the corners of a planar hull by angle around the least one.

`UnitTests.v` is not about properties: it checks that the model satisfies what the unit tests of the repository assert of the
code (constructors and their errors, boundedness, emptiness, inclusion, intersections, products, well-posedness, LPs, mpQP), for
every library that satisfies the contracts.

## 7. Wrong programs

`tools/mutate.py` edits one definition of the model in a scratch copy and rebuilds everything that depends on it; a theorem "fails" if its proof, or a lemma it uses, no longer compiles.
`seeded/LOG.jsonl` has one line per attempt.  Edits that no theorem noticed led to new or tightened theorems, named in the log.
