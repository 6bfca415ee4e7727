{"id": "C01", "title": "Constraint accumulation", "statement": "After any history of successful add_inequality / add_equality / add_lower_bound / add_upper_bound / add_bounds calls, the set of points satisfying the stored A x <= b, C x = d is exactly the original set intersected with every constraint that was added.", "quantifier": "every starting polyhedron of every dimension, every finite sequence of add_* calls, every point x", "why_tests_cant": "sequences of calls and dimensions are unbounded; tests sample a few boxes", "anchors": ["pympc/geometry/polyhedron.py:Polyhedron.add_inequality", "pympc/geometry/polyhedron.py:Polyhedron.add_equality", "pympc/geometry/polyhedron.py:Polyhedron.add_bounds"]}
{"id": "C02", "title": "Constraints on selected coordinates", "statement": "add_inequality/add_equality/add_*_bound with indices=[i0,...,ik] constrains exactly the coordinates x[i0],...,x[ik], in the order in which they were listed, and no other coordinate.", "quantifier": "every dimension n, every list of indices, every constraint matrix, every point", "why_tests_cant": "the set of index lists is unbounded; tests only use sorted lists", "anchors": ["pympc/geometry/polyhedron.py:Polyhedron._selection_matrix", "pympc/geometry/polyhedron.py:Polyhedron.add_lower_bound"]}
{"id": "C03", "title": "Cached attributes are never stale", "statement": "After any history of constraint additions, normalizations, redundancy removals and attribute reads, the value returned by empty, bounded, radius and center is one that a freshly built polyhedron with the current constraints would be entitled to return.", "quantifier": "every history of mutating calls and attribute reads on one polyhedron", "why_tests_cant": "staleness depends on the interleaving of reads and mutations, which has unboundedly many shapes", "anchors": ["pympc/geometry/polyhedron.py:Polyhedron._delete_attributes", "pympc/geometry/polyhedron.py:Polyhedron.empty", "pympc/geometry/polyhedron.py:Polyhedron.bounded", "pympc/geometry/polyhedron.py:Polyhedron.radius", "pympc/geometry/polyhedron.py:Polyhedron.center"]}
{"id": "C04", "title": "Intersection", "statement": "P1.intersection(P2) contains exactly the points in both P1 and P2 and leaves both operands unchanged.", "quantifier": "every pair of polyhedra of equal dimension, every point", "why_tests_cant": "universally quantified over pairs of polyhedra and points", "anchors": ["pympc/geometry/polyhedron.py:Polyhedron.intersection"]}
{"id": "C05", "title": "Cartesian product", "statement": "P1.cartesian_product(P2) contains (x,y) iff x is in P1 and y is in P2, including when one or both operands have equality constraints or no constraints.", "quantifier": "every pair of polyhedra of any dimensions, every pair of points", "why_tests_cant": "universally quantified over pairs of polyhedra and points", "anchors": ["pympc/geometry/polyhedron.py:Polyhedron.cartesian_product"]}
{"id": "C06", "title": "Membership test", "statement": "contains(x, tol) returns True iff no inequality is violated by more than tol and no equality residual exceeds tol in absolute value.", "quantifier": "every polyhedron, every point of matching dimension, every tolerance", "why_tests_cant": "the tests use a polyhedron with at most one kind of equality violation; the claim is over all points", "anchors": ["pympc/geometry/polyhedron.py:Polyhedron.contains"]}
{"id": "C07", "title": "Normalization preserves the set", "statement": "normalize() changes neither the set of points of the polyhedron nor the number of constraints, and every row of A and C whose norm exceeds the tolerance gets unit norm.", "quantifier": "every polyhedron with floating point (resp. integer) storage, every tolerance >= 0, every point", "why_tests_cant": "quantifies over all matrices and points", "anchors": ["pympc/geometry/polyhedron.py:Polyhedron.normalize"]}
{"id": "C08", "title": "Emptiness test", "statement": "empty is False only if the polyhedron has a point, and True only if it has none.", "quantifier": "every polyhedron with inequalities and equalities", "why_tests_cant": "the answer must be right for every constraint system, and the error threshold is on the solution norm", "anchors": ["pympc/geometry/polyhedron.py:Polyhedron.empty", "pympc/optimization/solvers/pnnls.py:quadratic_program"]}
{"id": "C09", "title": "Boundedness test", "statement": "bounded is True iff the polyhedron is empty or contained in some ball.", "quantifier": "every polyhedron", "why_tests_cant": "boundedness is a statement about all points of every polyhedron", "anchors": ["pympc/geometry/polyhedron.py:Polyhedron.bounded"]}
{"id": "C10", "title": "Redundancy removal keeps the set", "statement": "remove_redundant_inequalities() never removes a point from the polyhedron, and adds none when no removed facet is violated by the remaining ones; it never fails on a non-empty polyhedron without equalities.", "quantifier": "every non-empty polyhedron, every row ordering, every tolerance in (0,1)", "why_tests_cant": "the order in which facets are dropped interacts; quantifies over all polyhedra", "anchors": ["pympc/geometry/polyhedron.py:Polyhedron.minimal_facets", "pympc/geometry/polyhedron.py:Polyhedron.remove_redundant_inequalities"]}
{"id": "C11", "title": "Minimality of the facet list", "statement": "Each facet index returned by minimal_facets() is irredundant: dropping that facet from the returned representation strictly enlarges the set.", "quantifier": "every non-empty polyhedron, every returned index", "why_tests_cant": "needs a witness point for every facet of every polyhedron", "anchors": ["pympc/geometry/polyhedron.py:Polyhedron.minimal_facets"]}
{"id": "C12", "title": "Inclusion test", "statement": "P1.is_included_in(P2) returns True if every point of P1 is in P2; if it returns True every point of P1 satisfies every constraint of P2 within tol; it returns a boolean (does not raise) for every pair of polyhedra of equal dimension.", "quantifier": "every pair of polyhedra (bounded, unbounded, empty), every point", "why_tests_cant": "quantifies over every point of every pair", "anchors": ["pympc/geometry/polyhedron.py:Polyhedron.is_included_in"]}
{"id": "C13", "title": "Chebyshev center and radius", "statement": "If radius r and center c are returned for a polyhedron then every point within distance r of c (in the affine hull of the equalities) is in the polyhedron, and no larger ball fits; r is negative for an empty polyhedron.", "quantifier": "every polyhedron, every point of the ball", "why_tests_cant": "quantifies over all points of a ball and all competing balls", "anchors": ["pympc/geometry/polyhedron.py:Polyhedron._chebyshev", "pympc/geometry/polyhedron.py:Polyhedron.radius", "pympc/geometry/polyhedron.py:Polyhedron.center"]}
{"id": "C14", "title": "Elimination of equalities", "statement": "The change of variables computed for a polyhedron with equalities is a bijection between the points of the polyhedron and the points of the reduced inequality-only polyhedron {n | E n <= f}.", "quantifier": "every polyhedron with linearly independent equalities, every point", "why_tests_cant": "quantifies over all points and systems", "anchors": ["pympc/geometry/polyhedron.py:Polyhedron._remove_equalities", "pympc/geometry/utils.py:nullspace_basis"]}
{"id": "C15", "title": "A rejected constraint leaves the polyhedron unchanged", "statement": "If add_inequality, add_equality or add_bounds raises, the polyhedron describes the same set as before the call.", "quantifier": "every polyhedron and every malformed argument", "why_tests_cant": "the failure point inside the call depends on the shape of the argument; tests only check that an exception is raised", "anchors": ["pympc/geometry/polyhedron.py:Polyhedron.add_inequality", "pympc/geometry/polyhedron.py:Polyhedron.add_bounds"]}
{"id": "C16", "title": "Vertices of a one-dimensional polytope", "statement": "For a bounded full-dimensional polytope on the line, vertices returns its two endpoints.", "quantifier": "every one-dimensional polytope, any number and order of redundant rows", "why_tests_cant": "quantifies over all row lists", "anchors": ["pympc/geometry/polyhedron.py:Polyhedron.vertices"]}
{"id": "C17", "title": "Orthogonal projection", "statement": "project_to(dims) returns a polyhedron containing exactly the points y for which some point of the polytope has coordinates y in dims (up to the tolerance on facet expansion).", "quantifier": "every bounded full-dimensional polytope, every choice of residual dimensions", "why_tests_cant": "the expansion loop runs an input-dependent number of iterations", "anchors": ["pympc/geometry/polyhedron.py:Polyhedron.project_to", "pympc/geometry/polyhedron.py:convex_hull_method", "pympc/geometry/polyhedron.py:_expand_simplex"]}
{"id": "C18", "title": "LP optimality", "statement": "When the LP min f'x s.t. A x <= b, C x = d is feasible and bounded below, linear_program returns a feasible argmin attaining the infimum, with min = f'argmin.", "quantifier": "every LP of every size (with exact arithmetic and an exact NNLS kernel)", "why_tests_cant": "optimality compares with all feasible points", "anchors": ["pympc/optimization/solvers/pnnls.py:linear_program", "pympc/optimization/solvers/pnnls.py:pnnls"]}
{"id": "C19", "title": "LP infeasible/unbounded detection", "statement": "linear_program returns None fields iff the LP is infeasible or unbounded.", "quantifier": "every LP", "why_tests_cant": "quantifies over all constraint systems, including nearly feasible ones", "anchors": ["pympc/optimization/solvers/pnnls.py:linear_program"]}
{"id": "C20", "title": "LP multipliers", "statement": "The returned multipliers satisfy the KKT system: nonnegative inequality multipliers, stationarity f + A'l + C'n = 0, and complementary slackness; hence strong duality min = -b'l - d'n.", "quantifier": "every solvable LP", "why_tests_cant": "KKT must hold for every instance", "anchors": ["pympc/optimization/solvers/pnnls.py:linear_program"]}
{"id": "C21", "title": "QP optimality", "statement": "For a strictly convex QP, if quadratic_program returns a solution then argmin is feasible and is the unique minimizer, min is its cost, and the multipliers satisfy the KKT system.", "quantifier": "every H > 0, f, A, b, C, d of every size", "why_tests_cant": "optimality compares with all feasible points", "anchors": ["pympc/optimization/solvers/pnnls.py:quadratic_program"]}
{"id": "C22", "title": "QP infeasibility detection", "statement": "quadratic_program returns None fields iff the QP is infeasible.", "quantifier": "every QP", "why_tests_cant": "quantifies over all constraint systems; failure needs solutions of large norm", "anchors": ["pympc/optimization/solvers/pnnls.py:quadratic_program"]}
{"id": "C23", "title": "Reported active set", "statement": "active_set returned by the LP and QP solvers is the set of inequalities that hold with equality at argmin.", "quantifier": "every solvable LP/QP", "why_tests_cant": "depends on degeneracy, not on sizes that tests vary", "anchors": ["pympc/optimization/solvers/pnnls.py:linear_program", "pympc/optimization/solvers/pnnls.py:quadratic_program"]}
{"id": "C24", "title": "Gurobi model encodes the given program", "statement": "The optimization model built for Gurobi has the same feasible set and objective as the matrices passed by the caller.", "quantifier": "every H, f, A, b, C, d", "why_tests_cant": "depends on coefficient magnitudes; all points", "anchors": ["pympc/optimization/solvers/gurobi.py:linear_expression", "pympc/optimization/solvers/gurobi.py:quadratic_expression", "pympc/optimization/solvers/gurobi.py:_build_model"]}
{"id": "C25", "title": "Solver dispatch and argument checks", "statement": "linear_program/quadratic_program/mixed_integer_quadratic_program run exactly the named solver, raise ValueError for unknown names and for a missing C or d.", "quantifier": "every solver name and argument combination", "why_tests_cant": "quantifies over all strings and argument patterns", "anchors": ["pympc/optimization/programs.py:linear_program", "pympc/optimization/programs.py:quadratic_program", "pympc/optimization/programs.py:mixed_integer_quadratic_program"]}
{"id": "C26", "title": "Simulation follows the dynamics", "statement": "LinearSystem/AffineSystem.simulate(x0,u) returns N+1 states starting at x0 with x(t+1)=A x(t)+B u(t)+c; simulate_closed_loop equals simulate with u(t)=K x(t).", "quantifier": "every system, horizon, input sequence and initial state", "why_tests_cant": "unbounded horizon", "anchors": ["pympc/dynamics/discrete_time_systems.py:LinearSystem.simulate", "pympc/dynamics/discrete_time_systems.py:LinearSystem.simulate_closed_loop", "pympc/dynamics/discrete_time_systems.py:AffineSystem.simulate"]}
{"id": "C27", "title": "Condensed dynamics equal the simulation", "statement": "For the matrices returned by condense, A_bar x0 + B_bar u_bar + c_bar stacks exactly the states reached by stepping the system through the given mode sequence.", "quantifier": "every PWA system, every non-empty mode sequence, every x0 and inputs", "why_tests_cant": "unbounded horizon and mode sequences", "anchors": ["pympc/dynamics/discrete_time_systems.py:condense_pwa_system", "pympc/dynamics/discrete_time_systems.py:productory", "pympc/dynamics/discrete_time_systems.py:LinearSystem.condense", "pympc/dynamics/discrete_time_systems.py:AffineSystem.condense"]}
{"id": "C28", "title": "PWA simulation", "statement": "PieceWiseAffineSystem.simulate applies at each step the dynamics of the first domain that contains (x,u) and returns that mode; it raises ValueError exactly when a reached pair lies in no domain.", "quantifier": "every PWA system, every input sequence", "why_tests_cant": "unbounded horizon; depends on reached states", "anchors": ["pympc/dynamics/discrete_time_systems.py:PieceWiseAffineSystem.simulate", "pympc/dynamics/discrete_time_systems.py:PieceWiseAffineSystem.get_mode"]}
{"id": "C29", "title": "Well-posedness test", "statement": "is_well_posed() returns True only if no two distinct domains share an open ball of radius larger than tol, and False only if two do.", "quantifier": "every PWA system", "why_tests_cant": "quantifies over all balls and pairs of domains", "anchors": ["pympc/dynamics/discrete_time_systems.py:PieceWiseAffineSystem.is_well_posed"]}
{"id": "C30", "title": "Maximal invariant set is correct", "statement": "If mcais returns O then x0 is in O iff the trajectory of x(t+1)=A x(t) from x0 stays in X for all t >= 0.", "quantifier": "every A and X accepted by the function, every x0, all (infinitely many) times", "why_tests_cant": "the claim is about infinite trajectories", "anchors": ["pympc/dynamics/discrete_time_systems.py:mcais", "pympc/dynamics/discrete_time_systems.py:LinearSystem.mcais"]}
{"id": "C31", "title": "Termination of the invariant set computation", "statement": "mcais terminates on every input that passes its checks (spectral radius <= 1, X bounded and containing the origin).", "quantifier": "every accepted A and X", "why_tests_cant": "non-termination cannot be observed by a test", "anchors": ["pympc/dynamics/discrete_time_systems.py:mcais"]}
{"id": "C32", "title": "LQR optimality", "statement": "For P, K returned by solve_dare, the cost of any N-step input sequence equals 1/2 x0'P x0 - 1/2 xN'P xN plus a nonnegative term that vanishes iff u(t)=K x(t); so K is optimal and V = 1/2 x0' P x0.", "quantifier": "every system, Q, R, horizon and input sequence", "why_tests_cant": "unbounded horizon; compares with all input sequences", "anchors": ["pympc/dynamics/discrete_time_systems.py:LinearSystem.solve_dare"]}
{"id": "C33", "title": "Controllability test", "statement": "controllable is True iff every state can be reached from every state in nx steps.", "quantifier": "every pair (A,B), every pair of states", "why_tests_cant": "quantifies over all states", "anchors": ["pympc/dynamics/discrete_time_systems.py:LinearSystem.controllable"]}
{"id": "C34", "title": "Discretization", "statement": "zero_order_hold returns the exact sampled dynamics of dx/dt = A x + B u + c for constant u; explicit_euler returns x + h (A x + B u + c).", "quantifier": "every A, B, c, h >= 0, x, u", "why_tests_cant": "exactness over all matrices; limits of series", "anchors": ["pympc/dynamics/discretization_methods.py:zero_order_hold", "pympc/dynamics/discretization_methods.py:explicit_euler"]}
{"id": "C35", "title": "Symbolic construction", "statement": "The matrices extracted from a symbolic affine expression reproduce the expression at every point; from_symbolic of a non-affine expression does not silently succeed with a wrong system.", "quantifier": "every symbolic expression, every point", "why_tests_cant": "quantifies over all expressions", "anchors": ["pympc/geometry/polyhedron.py:get_matrices_affine_expression", "pympc/dynamics/discrete_time_systems.py:get_state_transition_matrices"]}
{"id": "C36", "title": "Constructors accept exactly coherent data", "statement": "LinearSystem/AffineSystem/PieceWiseAffineSystem/Polyhedron constructors raise ValueError iff the shapes are incoherent, and a constructed PWA system has equal dimensions across modes.", "quantifier": "every combination of shapes", "why_tests_cant": "quantifies over all shapes", "anchors": ["pympc/dynamics/utils.py:check_affine_system", "pympc/dynamics/discrete_time_systems.py:PieceWiseAffineSystem.__init__", "pympc/geometry/polyhedron.py:Polyhedron.__init__"]}
{"id": "C37", "title": "Condensed cost", "statement": "The mpQP built by the MPC controllers has, for every x0 and input sequence, objective value equal to the cost of the trajectory 1/2 sum (x'Qx+u'Ru) + 1/2 xN'P xN.", "quantifier": "every PWA system, mode sequence, Q, R, P, x0, u", "why_tests_cant": "unbounded horizon", "anchors": ["pympc/control/controllers.py:condense_optimal_control_problem", "pympc/control/controllers.py:ModelPredictiveController._condense_program", "pympc/control/controllers.py:HybridModelPredictiveController.get_mpqp"]}
{"id": "C38", "title": "Condensed constraints", "statement": "The inequalities of the mpQP hold at (x0,u) iff every (x(t),u(t)) of the induced trajectory is in its domain and x(N) is in the terminal set.", "quantifier": "every PWA system, mode sequence, x0, u", "why_tests_cant": "unbounded horizon", "anchors": ["pympc/control/controllers.py:condense_optimal_control_problem"]}
{"id": "C39", "title": "MPC feedforward is optimal", "statement": "ModelPredictiveController.feedforward(x) returns N inputs whose trajectory satisfies all constraints and minimizes the cost among all admissible input sequences, with V the optimal cost; feedback returns the first input.", "quantifier": "every controller and state", "why_tests_cant": "compares with all input sequences of every horizon", "anchors": ["pympc/control/controllers.py:ModelPredictiveController.feedforward", "pympc/control/controllers.py:ModelPredictiveController.feedback", "pympc/optimization/parametric_programs.py:MultiParametricQuadraticProgram.solve"]}
{"id": "C40", "title": "Critical region optimality", "statement": "For every x in a critical region returned by explicit_solve_given_active_set, u(x) is the minimizer of the mpQP at x, p(x) its multipliers and V(x) its optimal value.", "quantifier": "every mpQP, every active set, every x in the region", "why_tests_cant": "infinitely many parameters per region", "anchors": ["pympc/optimization/parametric_programs.py:MultiParametricQuadraticProgram.explicit_solve_given_active_set", "pympc/optimization/parametric_programs.py:CriticalRegion"]}
{"id": "C41", "title": "Explicit solution lookup", "statement": "ExplicitSolution.u/p/V evaluate one and the same region, the first that contains x, and return None iff no region contains x.", "quantifier": "every list of regions, every x", "why_tests_cant": "quantifies over region lists and points", "anchors": ["pympc/optimization/parametric_programs.py:ExplicitSolution.get_critical_region", "pympc/optimization/parametric_programs.py:ExplicitSolution.u", "pympc/optimization/parametric_programs.py:ExplicitSolution.V"]}
{"id": "C42", "title": "Explicit solver is sound", "statement": "Every region in the result of explicit_solve is an optimal critical region, whatever active sets were guessed; in the regions' union the explicit and implicit controllers return the same input and cost.", "quantifier": "every mpQP, every number of iterations", "why_tests_cant": "the exploration loop is unbounded and its active-set guesses can be wrong", "anchors": ["pympc/optimization/parametric_programs.py:MultiParametricQuadraticProgram.explicit_solve", "pympc/optimization/parametric_programs.py:MultiParametricQuadraticProgram.explicit_solve_given_point", "pympc/control/controllers.py:ModelPredictiveController.feedforward_explicit"]}
{"id": "C43", "title": "Explicit solver covers the feasible set", "statement": "When explicit_solve terminates, every feasible parameter is covered by some region.", "quantifier": "every mpQP, every feasible x", "why_tests_cant": "quantifies over all parameters", "anchors": ["pympc/optimization/parametric_programs.py:MultiParametricQuadraticProgram.explicit_solve"]}
{"id": "C44", "title": "Recursive feasibility", "statement": "With a terminal set that is invariant and admissible under u=Kx (e.g. computed by mcais), if feedforward(x) is feasible then the problem at the next state A x + B feedback(x) is feasible too, so along the closed loop the controller always has a feasible problem.", "quantifier": "every controller, every feasible state, all closed-loop times", "why_tests_cant": "unbounded closed-loop histories", "anchors": ["pympc/control/controllers.py:ModelPredictiveController", "pympc/dynamics/discrete_time_systems.py:LinearSystem.mcais"]}
{"id": "C45", "title": "Closed-loop cost decrease", "statement": "With terminal cost P and gain K from solve_dare and an invariant terminal set, the optimal value decreases along the closed loop by at least the stage cost, V(x+) <= V(x) - 1/2(x'Qx+u'Ru).", "quantifier": "every controller and feasible state", "why_tests_cant": "all states and closed-loop histories", "anchors": ["pympc/control/controllers.py:ModelPredictiveController", "pympc/dynamics/discrete_time_systems.py:LinearSystem.solve_dare"]}
{"id": "C46", "title": "MPC versus LQR", "statement": "V_mpc(x) >= 1/2 x'P x for every feasible x, with equality and the LQR inputs when the LQR trajectory is admissible (x in the mcais).", "quantifier": "every feasible state", "why_tests_cant": "all states", "anchors": ["pympc/control/controllers.py:ModelPredictiveController.feedforward", "pympc/dynamics/discrete_time_systems.py:LinearSystem.solve_dare"]}
{"id": "C47", "title": "Hybrid MPC big-M encoding", "statement": "A triple (u, z, delta) with binary delta is feasible for the mixed-integer program iff delta selects one mode per step, the induced trajectory follows the dynamics of the selected modes inside their domains, and ends in the terminal set.", "quantifier": "every PWA system with bounded domains, every horizon, x0, u, z, delta", "why_tests_cant": "unbounded horizon and mode sequences", "anchors": ["pympc/control/controllers.py:HybridModelPredictiveController._build_inequalities", "pympc/control/controllers.py:HybridModelPredictiveController._bigM_matrices", "pympc/control/controllers.py:HybridModelPredictiveController._condense_inequalities", "pympc/control/controllers.py:HybridModelPredictiveController._condense_equalities"]}
{"id": "C48", "title": "Hybrid MPC feedforward is optimal", "statement": "HybridModelPredictiveController.feedforward(x) returns inputs, states and modes that form an admissible PWA trajectory of minimal cost over all input and mode sequences; None iff there is none; the same cost is the optimum of get_mpqp(mode_sequence).", "quantifier": "every hybrid controller and state", "why_tests_cant": "compares with all mode sequences", "anchors": ["pympc/control/controllers.py:HybridModelPredictiveController.feedforward", "pympc/optimization/parametric_programs.py:MultiParametricMixedIntegerQuadraticProgram.solve"]}
{"id": "C49", "title": "Big-M constants", "statement": "alpha, beta, gamma are the exact extreme values over the domains; the construction fails (raises) when a domain is unbounded in a needed direction or empty.", "quantifier": "every PWA system", "why_tests_cant": "extremality over all points of the domains", "anchors": ["pympc/control/controllers.py:HybridModelPredictiveController._get_bigM_dynamics", "pympc/control/controllers.py:HybridModelPredictiveController._get_bigM_domains"]}
{"id": "C50", "title": "Equality constraints of domains are honoured", "statement": "When D, X or X_N carries equality constraints C x = d, the trajectories returned by the controllers and the sets returned by mcais satisfy them.", "quantifier": "every controller / system whose sets have equalities", "why_tests_cant": "depends on inputs no test uses", "anchors": ["pympc/control/controllers.py:condense_optimal_control_problem", "pympc/dynamics/discrete_time_systems.py:LinearSystem.mcais", "pympc/dynamics/discrete_time_systems.py:mcais"]}
{"id": "C51", "title": "Plane through points", "statement": "plane_through_points(points) returns a, d with a'p = d for every given point, |a| = 1 and d >= 0, for every random offset for which it returns.", "quantifier": "every list of n points in R^n, every random offset", "why_tests_cant": "quantifies over the random draw", "anchors": ["pympc/geometry/utils.py:plane_through_points"]}
{"id": "C52", "title": "Row-set comparison", "statement": "same_rows(A,B) / same_vectors return True iff the rows of A can be matched one-to-one with the rows of B (up to closeness, and up to positive scaling if normalize).", "quantifier": "every pair of matrices, any order, duplicates", "why_tests_cant": "orders and duplicates are unbounded", "anchors": ["pympc/geometry/utils.py:same_rows", "pympc/geometry/utils.py:same_vectors"]}
{"id": "C53", "title": "Independent rows", "statement": "linearly_independent_rows(A) returns indices of linearly independent rows of A, as many as the rank.", "quantifier": "every matrix", "why_tests_cant": "quantifies over all matrices", "anchors": ["pympc/geometry/utils.py:linearly_independent_rows"]}
{"id": "C54", "title": "Feasible set of the mpQP", "statement": "get_feasible_set() contains x iff some u satisfies Au u + Ax x <= b.", "quantifier": "every mpQP, every x", "why_tests_cant": "all parameters", "anchors": ["pympc/optimization/parametric_programs.py:MultiParametricQuadraticProgram.get_feasible_set"]}
{"id": "C55", "title": "Aliasing of copies", "statement": "Mutating the polyhedron returned by intersection/copy with add_* never changes the original polyhedron or the caller's arrays; in-place normalization is visible only through arrays that are shared.", "quantifier": "every heap of arrays shared between polyhedra, every history of calls", "why_tests_cant": "histories and sharing patterns are unbounded", "anchors": ["pympc/geometry/polyhedron.py:Polyhedron.intersection", "pympc/geometry/polyhedron.py:Polyhedron.normalize", "pympc/optimization/parametric_programs.py:CriticalRegion.facet_center"]}
{"id": "C56", "title": "Voronoi partition of the examples", "statement": "The cells built by constrained_voronoi for one-dimensional spreads contain exactly the points of X closest to their generator.", "quantifier": "every list of distinct points, every query point", "why_tests_cant": "quantifies over all query points", "anchors": ["examples/pwa_from_urdf/utils.py:_voronoi_1d", "examples/pwa_from_urdf/utils.py:constrained_voronoi"]}
{"id": "C57", "title": "Example hybrid controller uses the given terminal cost", "statement": "The example Controller solves the optimal control problem with the terminal cost P it is given.", "quantifier": "every P", "why_tests_cant": "depends on P differing from Q, which the notebook never tests", "anchors": ["examples/pwa_from_urdf/utils.py:Controller.__init__"]}
{"id": "C58", "title": "Closed loop of the MPC", "statement": "With terminal cost and gain of solve_dare and an invariant terminal set, the closed loop started at a state with a solution runs forever, satisfies the constraints at all times, accumulates stage costs of at most V(x0), and converges to the origin if Q is positive definite.", "quantifier": "every controller, start state and closed-loop time", "why_tests_cant": "infinite executions", "anchors": ["pympc/control/controllers.py:ModelPredictiveController.feedback", "pympc/dynamics/discrete_time_systems.py:LinearSystem.solve_dare"]}
{"id": "C59", "title": "Explicit MPC", "statement": "After store_explicit_solution, feedforward_explicit and feedback_explicit return the optimal inputs and cost on the stored regions, (None, None) outside, and raise ValueError before.", "quantifier": "every controller and state, every number of iterations of the explicit solver", "why_tests_cant": "all states and region lists", "anchors": ["pympc/control/controllers.py:ModelPredictiveController.store_explicit_solution", "pympc/control/controllers.py:ModelPredictiveController.feedforward_explicit", "pympc/control/controllers.py:ModelPredictiveController.feedback_explicit"]}
{"id": "C60", "title": "Gurobi wrappers report the solution", "statement": "The dictionaries returned by the Gurobi wrappers hold a minimizer, its cost, multipliers satisfying the KKT conditions and an active set of active constraints, or None everywhere if there is no minimizer; the mixed-integer wrapper minimizes over binary values of the variables from nc on.", "quantifier": "every linear, quadratic and mixed-integer program, every answer of an exact Gurobi", "why_tests_cant": "needs Gurobi, and quantifies over all programs", "anchors": ["pympc/optimization/solvers/gurobi.py:linear_program", "pympc/optimization/solvers/gurobi.py:quadratic_program", "pympc/optimization/solvers/gurobi.py:mixed_integer_quadratic_program", "pympc/optimization/solvers/gurobi.py:_reorganize_solution"]}
{"id": "C61", "title": "The solvers agree", "statement": "'pnnls' and 'gurobi' return the same minimum on solvable linear programs and the same minimizer on strictly convex quadratic programs for which 'pnnls' returns a solution.", "quantifier": "every program without tiny entries", "why_tests_cant": "two solvers compared on all programs", "anchors": ["pympc/optimization/programs.py:linear_program", "pympc/optimization/programs.py:quadratic_program"]}
{"id": "C62", "title": "Convex hull of points", "statement": "from_convex_hull(points) returns a polyhedron whose points are exactly the convex combinations of the given points.", "quantifier": "every finite list of points of one dimension, every convex-hull routine meeting its contract", "why_tests_cant": "all finite sets of points and all dimensions", "anchors": ["pympc/geometry/polyhedron.py:Polyhedron.from_convex_hull"]}
{"id": "C63", "title": "Active-set guesses of the explicit solver", "statement": "At every point of a facet of a critical region, the active set that explicit_solve guesses for the other side of the facet is optimal too: its region contains the facet, with the same minimizer, multipliers and value.", "quantifier": "every mpQP, every active set, every facet and every point of it", "why_tests_cant": "quantifies over all programs, facets and points of the facets", "anchors": ["pympc/optimization/parametric_programs.py:MultiParametricQuadraticProgram.explicit_solve", "pympc/optimization/parametric_programs.py:MultiParametricQuadraticProgram.explicit_solve_given_active_set"]}
{"id": "C64", "title": "Facet centers and exploration steps", "statement": "facet_center(i) returns the center of a largest ball of the i-th facet, and stepping from it along the facet's normal by more than the tolerance leaves the region.", "quantifier": "every polyhedron in any dimension, every facet, every step", "why_tests_cant": "quantifies over all polyhedra and all balls of the facet", "anchors": ["pympc/optimization/parametric_programs.py:CriticalRegion.facet_center", "pympc/optimization/parametric_programs.py:MultiParametricQuadraticProgram.explicit_solve"]}
{"id": "C65", "title": "The drake LP wrapper returns a solution with Lagrange multipliers", "statement": "For a linear program and an exact drake, solvers/drake.py:linear_program returns a minimizer, its cost, the constraints active at it and multipliers that satisfy the KKT conditions; None everywhere if there is no minimizer.", "quantifier": "every linear program with any number of inequalities and equalities", "why_tests_cant": "multipliers are recomputed from the active set with a pseudo-inverse, whose sign and support are not controlled", "anchors": ["pympc/optimization/solvers/drake.py:linear_program"]}
{"id": "C66", "title": "The drake QP wrapper returns a solution with Lagrange multipliers", "statement": "For a strictly convex quadratic program and an exact drake, solvers/drake.py:quadratic_program returns the minimizer, its cost, the constraints active at it and multipliers that satisfy the KKT conditions; None everywhere if there is no minimizer.", "quantifier": "every strictly convex quadratic program with any number of inequalities and equalities", "why_tests_cant": "multipliers are recomputed by inverting a Gram matrix of the nearly active constraints", "anchors": ["pympc/optimization/solvers/drake.py:quadratic_program"]}
{"id": "C67", "title": "The drake MIQP wrapper solves the given program", "statement": "For an exact drake, solvers/drake.py:mixed_integer_quadratic_program returns a minimizer over the points whose entries from number nc on are binary, and its cost, or None; all three drake wrappers raise ValueError if only one of C and d is given.", "quantifier": "every mixed-integer program, every number nc of continuous variables", "why_tests_cant": "quantifies over all programs", "anchors": ["pympc/optimization/solvers/drake.py:mixed_integer_quadratic_program"]}
{"id": "C68", "title": "Vertices are the extreme points", "statement": "For a full-dimensional polytope (given by inequalities, and equalities that leave one or more degrees of freedom) Polyhedron.vertices returns exactly its extreme points, and the polytope is their convex hull; for empty and for lower-dimensional polyhedra it returns None.", "quantifier": "every polytope in any dimension, with any number of inequalities and independent equalities", "why_tests_cant": "quantifies over all polytopes; the routine changes coordinates, calls Qhull with the Chebyshev center, and changes back", "anchors": ["pympc/geometry/polyhedron.py:vertices"]}
{"id": "C69", "title": "Closed loop of the hybrid MPC", "statement": "With a terminal set and a terminal cost for which some mode and input keep the state in the set and decrease the cost by the stage cost, the closed loop of HybridModelPredictiveController never becomes infeasible, respects the domains of the selected modes, decreases the optimal value by at least the stage cost, and converges to the origin.", "quantifier": "all PWA systems, costs, terminal sets, horizons >= 1, initial states with an admissible run, Gurobi solving the programs along the loop", "why_tests_cant": "recursive feasibility and stability are what the terminal ingredients of the controller are for", "anchors": ["pympc/control/controllers.py:HybridModelPredictiveController.feedback", "pympc/control/controllers.py:HybridModelPredictiveController.feedforward"]}
{"id": "C70", "title": "Linear MPC workflow", "statement": "For a controllable linear system, positive definite Q and R and bounds on x and u with the origin inside, the sequence of calls of examples/linear_mpc.ipynb (solve_dare, from_bounds, cartesian_product, mcais, ModelPredictiveController) succeeds, and the loop calling feedback from a feasible state runs for any number of steps, respects the bounds and converges to the origin.", "quantifier": "all controllable (A, B), positive definite Q and R, bounds, horizons >= 1, feasible initial states", "why_tests_cant": "this is the documented use of the library; each step must establish what the next one needs", "anchors": ["pympc/dynamics/discrete_time_systems.py:LinearSystem.solve_dare", "pympc/dynamics/discrete_time_systems.py:LinearSystem.mcais", "pympc/control/controllers.py:ModelPredictiveController.feedback", "pympc/geometry/polyhedron.py:cartesian_product", "pympc/geometry/polyhedron.py:from_bounds"]}
{"id": "C71", "title": "Trajectory plots show the data", "statement": "plot_input_sequence draws, for each input component, the step function whose value on (k h, (k+1) h] is that component of u_k; plot_state_trajectory and plot_output_trajectory draw the broken line through the points (k h, component of x_k or of C x_k); bounds are drawn as constants; plot_state_space_trajectory draws the broken line through the selected components of the states, labels each point and marks the first.", "quantifier": "all trajectories of any length and dimension, all time steps > 0, all bounds", "why_tests_cant": "quantifies over all data; only single plots can be inspected", "anchors": ["pympc/plot.py:plot_input_sequence", "pympc/plot.py:plot_state_trajectory", "pympc/plot.py:plot_output_trajectory", "pympc/plot.py:plot_state_space_trajectory"]}
{"id": "C72", "title": "Plot of a polyhedron is its projection", "statement": "Polyhedron.plot draws a closed path that goes around exactly the projection of the polytope onto the two residual dimensions, prints a message and draws nothing for empty or unbounded polyhedra, and raises ValueError unless there are two residual dimensions.", "quantifier": "every polytope in any dimension, every pair of dimensions", "why_tests_cant": "quantifies over all polytopes; the path goes through the vertices of the projection in the order found by Qhull", "anchors": ["pympc/geometry/polyhedron.py:plot"]}
{"id": "C73", "title": "Plots of the explicit controller", "statement": "plot_state_space_partition draws each critical region and on request its active set at the center of the region; plot_optimal_value_function draws the feasible set and the level sets of the optimal value on an equidistant grid over the bounding box of the feasible set; both raise ValueError unless there are two states and the explicit solution is stored.", "quantifier": "all controllers with two states, all explicit solutions, all grids", "why_tests_cant": "quantifies over all explicit solutions", "anchors": ["pympc/control/controllers.py:ModelPredictiveController.plot_state_space_partition", "pympc/control/controllers.py:ModelPredictiveController.plot_optimal_value_function"]}
{"id": "C74", "title": "Relaxations of a disjunction", "statement": "The disjunctive-inequalities notebook relaxes 'x in P1 or x in P2' for two polytopes P1 and P2. The big-M cell produces the big-M relaxation written in its text (A_1 x <= b_1 + M delta, A_2 x <= b_2 + M (1 - delta), delta in [0, 1]), and the convex-hull cell produces the convex hull of the union of P1 and P2; with delta = 0 or 1 the constraints are those of P1 or of P2", "quantifier": "for all nonempty polytopes P1 and P2 of the same dimension and all vectors M large enough", "why_tests_cant": "The two formulations are the basis of the mixed-integer encodings of the hybrid controllers", "anchors": ["examples/disjunctive_inequalities.ipynb", "pympc/geometry/polyhedron.py:add_bounds", "pympc/geometry/polyhedron.py:intersection", "pympc/geometry/polyhedron.py:project_to"]}
{"id": "C75", "title": "Invariant-set notebook", "statement": "The notebook on maximal constraint-admissible invariant sets (solve_dare, bounds, cartesian_product, mcais, X_cl = states whose LQR input is admissible, closed-loop simulations) succeeds, and O_inf consists of exactly the states from which every simulated closed-loop trajectory stays in X_cl; trajectories from O_inf stay in O_inf and converge to the origin.", "quantifier": "all controllable linear systems, all positive definite Q and R, all boxes with the origin inside, trajectories of any length", "why_tests_cant": "the set is a statement about infinitely many trajectories of unbounded length", "anchors": ["examples/maximal_constraint_admissible_set.ipynb", "pympc/dynamics/discrete_time_systems.py:LinearSystem.mcais", "pympc/dynamics/discrete_time_systems.py:LinearSystem.simulate_closed_loop", "pympc/dynamics/discrete_time_systems.py:LinearSystem.solve_dare"]}
{"id": "C76", "title": "Hybrid MPC notebooks", "statement": "The notebooks on hybrid MPC (PieceWiseAffineSystem, solve_dare and mcais for the mode of the origin, HybridModelPredictiveController, then the loop u = feedback(x), x = simulate(x, [u])[0][1]) succeed; from every state with an admissible run the loop never fails, every pair (x, u) lies in a domain, the next state is that of this domain, and the state approaches the origin.", "quantifier": "all piecewise affine systems on bounded domains, one of which has the origin inside and a linear controllable system; all horizons; loops of any length", "why_tests_cant": "the loop composes four modules; its invariant is a statement about all executions", "anchors": ["examples/hybrid_mpc.ipynb", "examples/hybrid_mpc_2.ipynb", "pympc/dynamics/discrete_time_systems.py:PieceWiseAffineSystem", "pympc/control/controllers.py:HybridModelPredictiveController"]}
{"id": "C77", "title": "Explicit solver terminates", "statement": "explicit_solve of the multi-parametric QP stops for every strictly convex program and every step size, after finitely many iterations, and no active set is listed twice in the result.", "quantifier": "all strictly convex parametric programs with at least one constraint, all step sizes, all exact numerical libraries", "why_tests_cant": "a while loop over a buffer that grows: no bound on the number of iterations is visible in the code", "anchors": ["pympc/optimization/parametric_programs.py:MultiParametricQuadraticProgram.explicit_solve", "pympc/optimization/parametric_programs.py:MultiParametricQuadraticProgram.explicit_solve_given_point"]}
{"id": "C78", "title": "Explicit controller in closed loop", "statement": "The explicit controller (store_explicit_solution, then feedforward_explicit and feedback_explicit) is equivalent to the on-line controller (feedforward and feedback): both return the same inputs and costs at every state, so the loop closed with feedback_explicit keeps the constraints, decreases the optimal cost and converges to the origin as the one closed with feedback does.", "quantifier": "for all linear systems, horizons, costs, domains, terminal sets, states and all times", "why_tests_cant": "The explicit controller is computed off-line in order to replace the on-line one; it is used in the loop without further checks.", "anchors": ["pympc/control/controllers.py:ModelPredictiveController.store_explicit_solution", "pympc/control/controllers.py:ModelPredictiveController.feedforward_explicit", "pympc/control/controllers.py:ModelPredictiveController.feedback_explicit", "pympc/optimization/parametric_programs.py:ExplicitSolution.get_critical_region"]}
{"id": "C79", "title": "The explicit solution is a continuous function with a convex value", "statement": "For a strictly convex multiparametric QP the regions returned by explicit_solve define one function of the parameter: where regions overlap their minimizers and values agree, and minimizer and value are continuous on the union of the regions. If the objective is convex in (x, u) jointly, as for the MPC controllers, the value is convex; for the linear MPC controller the set of states with an admissible input sequence and the optimal cost are convex.", "quantifier": "all programs with positive definite Huu, all regions returned, all parameters in them; for the controller all linear systems, weights, horizons, states", "why_tests_cant": "Lookup takes the first region that matches; the result must not depend on which one, and must not jump.", "anchors": ["pympc/optimization/parametric_programs.py:explicit_solve", "pympc/optimization/parametric_programs.py:ExplicitSolution", "pympc/control/controllers.py:feedforward"]}
{"id": "C80", "title": "The value of the MPC controller is an infinite-horizon cost", "statement": "With P and K of solve_dare, Q positive definite and a terminal set that is invariant under u = K x: a value V returned by feedforward is the limit of the stage costs of an admissible infinite trajectory (the N returned inputs, then u = K x), the least over all that reach the terminal set within N steps; a longer horizon never loses a feasible state and never increases V; and if the terminal set contains a neighbourhood of the origin, from some horizon on V is the least cost over all admissible infinite trajectories.", "quantifier": "for all linear systems, weights, constraint sets, horizons and states x with a signal of finite cost below 1/2 x'P x + 5e13", "why_tests_cant": "The terminal cost and set are chosen (docstring, notebooks) so that the finite-horizon program stands for the infinite-horizon regulator; a wrong terminal weight, an off-by-one in the horizon or a missing factor 1/2 would break exactly this.", "anchors": ["pympc/control/controllers.py:ModelPredictiveController", "pympc/control/controllers.py:feedforward", "pympc/control/controllers.py:feedback", "pympc/dynamics/discrete_time_systems.py:solve_dare"]}
{"id": "C81", "title": "The optimizer is a Lipschitz, piecewise affine function of the parameter", "statement": "For a strictly convex multiparametric QP with m constraints at most 2^m regions of explicit_solve_given_active_set cover exactly the feasible parameters, also when constraints are degenerate; on each region the minimizer is the affine function u and the value the quadratic function V of the region; and one constant bounds the change of the minimizer relative to the change of the parameter. For the linear MPC controller the inputs returned by feedforward and feedback are such a function of the state.", "quantifier": "all programs with positive definite Huu and all parameters; for the controller all linear systems, weights, horizons, constraint sets and states", "why_tests_cant": "The explicit solution is usable as a control law only because of this: finitely many regions suffice, none is missed through degeneracy, and a small error in the state estimate changes the input by a proportionally small amount.", "anchors": ["pympc/optimization/parametric_programs.py:MultiParametricQuadraticProgram", "pympc/optimization/parametric_programs.py:explicit_solve_given_active_set", "pympc/control/controllers.py:feedforward", "pympc/control/controllers.py:feedback"]}
{"id": "C82", "title": "The MPC law depends only on the meaning of its data", "statement": "Two linear MPC controllers built for the same control problem return the same inputs and costs (and None at the same states): whatever the order, scaling or redundancy of the rows of domain and terminal set, whatever exact numerical library is used, and in any coordinates of states and inputs (the answers correspond). With symmetric sets the law is odd: at -x the negated inputs and the same cost are returned.", "quantifier": "all linear systems, weights, horizons, constraint sets, bijective changes of coordinates, states", "why_tests_cant": "The pnnls solver works on rows of the constraint matrices and decides infeasibility by a tolerance on their residual; that none of this leaks into the answers is a relation between pairs of executions.", "anchors": ["pympc/control/controllers.py:ModelPredictiveController", "pympc/control/controllers.py:feedforward", "pympc/control/controllers.py:feedback", "pympc/optimization/solvers/pnnls.py:quadratic_program"]}
{"id": "C83", "title": "Scaling of the weights", "statement": "Multiplying Q, R and P by the same positive factor c changes neither the inputs returned by the linear MPC controller nor the states at which it returns None, and multiplies the cost by c.", "quantifier": "all linear systems, weights, horizons, constraint sets, states and factors c > 0", "why_tests_cant": "An invariance between pairs of executions, for all problems and factors; it depends on the units of the threshold in the solver.", "anchors": ["pympc/control/controllers.py:feedforward", "pympc/control/controllers.py:feedback", "pympc/optimization/solvers/pnnls.py:quadratic_program"]}
{"id": "C84", "title": "Hybrid MPC and linear MPC agree where the dynamics is one", "statement": "If all modes of a PWA system have the same linear dynamics and their domains together make up D (a single mode, or a domain cut into pieces in any way, with overlaps), the hybrid MPC controller and the linear MPC controller for D return the same inputs, cost and feedback, and the hybrid controller returns None only where the linear one does.", "quantifier": "all such systems with non-empty bounded domains without equalities, all weights, horizons, terminal sets and states; MIQP solver exact on the program", "why_tests_cant": "Two independent implementations (condensed QP with pnnls; big-M MIQP with Gurobi) of one specification, for all systems and ways to cut the domain.", "anchors": ["pympc/control/controllers.py:HybridModelPredictiveController", "pympc/control/controllers.py:HybridModelPredictiveController.feedforward", "pympc/control/controllers.py:ModelPredictiveController.feedforward"]}
{"id": "C85", "title": "Closed loop of the drake controller of the examples", "statement": "If the terminal set is invariant for the PWA system under some input with the terminal cost decreasing by the stage cost, the loop closed with the hybrid controller of the examples never fails from a state with an admissible run: feedback returns an input at every step, states and inputs stay in the domains, the values decrease by the stage costs, and with positive definite Q the state converges to the origin.", "quantifier": "all PWA systems, weights, horizons, terminal sets and initial states, all executions of the loop; drake solver exact on the programs met", "why_tests_cant": "Induction over executions on top of the encoding, whose indicator variables are cut at 1e-6 and whose big-M constants come from linear programs.", "anchors": ["examples/pwa_from_urdf/utils.py:Controller", "examples/pwa_from_urdf/utils.py:HybridModelPredictiveController.feedforward", "examples/pwa_from_urdf/utils.py:HybridModelPredictiveController.feedback"]}
{"id": "C86", "title": "The cart-pole notebook", "statement": "The PWA model built in the notebook has one mode per linearization angle, each with the sampled dynamics of its linearization on the slice of X around its angle, and the slices cover X x U; the controller of the notebook is built, and with the input that it returns held between two samples the sampled states of a plant equal to its linearizations converge to the origin from every state with a run to the origin.", "quantifier": "all numbers of states, bounds, linearization angles, sampling times, horizons, weights, plants and executions; drake solver exact on the programs met", "why_tests_cant": "The composition of linearization, zero-order hold, Voronoi partition, big-M encoding and closed loop; no test runs it.", "anchors": ["examples/pwa_from_urdf/cart_pole_from_urdf.ipynb", "examples/pwa_from_urdf/utils.py:pwa_from_RigidBodyPlant", "examples/pwa_from_urdf/utils.py:Controller"]}
{"id": "C87", "title": "The example controller does not depend on its history", "statement": "The answers of feedforward and feedback of the controller of the examples depend on the state passed and on nothing else: whatever calls were made before on the same object, also ones that raised half-way through set_initial_condition, they are those of a freshly built controller.", "quantifier": "all PWA systems, weights, horizons, terminal sets, finite sequences of calls with states of any length, all drake solvers that are functions of the program", "why_tests_cant": "The object keeps one mathematical program and overwrites the bounds of x(0) entry by entry; an entry left over from an earlier or failed call would silently change the plan.", "anchors": ["examples/pwa_from_urdf/utils.py:HybridModelPredictiveController.set_initial_condition", "examples/pwa_from_urdf/utils.py:HybridModelPredictiveController.feedforward", "examples/pwa_from_urdf/utils.py:HybridModelPredictiveController.feedback"]}
{"id": "C88", "title": "The feasible set is a region of attraction", "statement": "For linear MPC with P, K from solve_dare, positive definite Q, an invariant terminal set around the origin and a bounded domain: from every state of the polyhedron that get_feasible_set returns, the closed loop runs forever inside the domain and converges to the origin, and at every state outside feedback returns None.", "quantifier": "all linear systems, weights, horizons, domains, terminal sets, numbers of states and inputs, random offsets and executions", "why_tests_cant": "What users plot as the region of attraction: it connects the projection of the condensed program with the closed loop.", "anchors": ["pympc/optimization/parametric_programs.py:MultiParametricQuadraticProgram.get_feasible_set", "pympc/control/controllers.py:ModelPredictiveController.feedback", "pympc/control/controllers.py:ModelPredictiveController.feedforward"]}
{"id": "C89", "title": "Membership test respects the set operations", "statement": "contains accepts x in the intersection iff both polyhedra accept x, (x, y) in the cartesian product iff the factors accept x and y; a larger tolerance accepts more; normalize does not change the answer; if P1 is included in P2, then P2 accepts every point of P1.", "quantifier": "all polyhedra, points, tolerances", "why_tests_cant": "the sets that the library combines are the sets it tests", "anchors": ["pympc/geometry/polyhedron.py:Polyhedron.contains", "pympc/geometry/polyhedron.py:Polyhedron.intersection", "pympc/geometry/polyhedron.py:Polyhedron.cartesian_product", "pympc/geometry/polyhedron.py:Polyhedron.normalize", "pympc/geometry/polyhedron.py:Polyhedron.is_included_in"]}
{"id": "C90", "title": "Linear, affine and piecewise affine systems agree", "statement": "A LinearSystem behaves as the AffineSystem with zero offset and as the one-mode PieceWiseAffineSystem (simulate, condense, from_continuous); simulating over u1 followed by u2 is simulating twice; linear simulation superposes.", "quantifier": "all systems, horizons, states, inputs", "why_tests_cant": "relates runs of different objects of unbounded length", "anchors": ["pympc/dynamics/discrete_time_systems.py:LinearSystem.simulate", "pympc/dynamics/discrete_time_systems.py:AffineSystem.simulate", "pympc/dynamics/discrete_time_systems.py:PieceWiseAffineSystem.simulate", "pympc/dynamics/discrete_time_systems.py:LinearSystem.condense", "pympc/dynamics/discrete_time_systems.py:LinearSystem.simulate_closed_loop", "pympc/dynamics/discrete_time_systems.py:LinearSystem.from_continuous", "pympc/dynamics/discrete_time_systems.py:AffineSystem.from_continuous"]}
{"id": "C91", "title": "Systems of the hybrid MPC notebooks", "statement": "The cells of hybrid_mpc.ipynb and hybrid_mpc_2.ipynb that define the systems and the domains succeed for all positive parameters; the domains cover the box of bounds and overlap only on the contact surfaces; on its domain each mode is the explicit Euler step of the pendulum (cart-pole) with one-sided springs; one step of simulate differs from the spring model by at most h k/m 1e-7 (h k/(l mp) 1e-7) and agrees with it outside strips of width 1e-7; the mode of the origin is controllable, the controller is built, and (invariant terminal set, exact solver) the closed loop outside the strips follows the spring model and approaches the origin.", "quantifier": "all positive parameters, horizons, positive definite weights, states with an admissible run, loops of any length", "why_tests_cant": "the claims quantify over all physical parameters and all executions; the notebooks run one set of numbers", "anchors": ["examples/hybrid_mpc.ipynb", "examples/hybrid_mpc_2.ipynb", "pympc/dynamics/discrete_time_systems.py:LinearSystem.from_continuous", "pympc/dynamics/discrete_time_systems.py:AffineSystem.from_continuous", "pympc/dynamics/discrete_time_systems.py:PieceWiseAffineSystem", "pympc/geometry/polyhedron.py:Polyhedron.from_bounds", "pympc/control/controllers.py:HybridModelPredictiveController"]}
{"id": "C92", "title": "The stability test of mcais", "statement": "With eigenvalues computed exactly, mcais raises ValueError exactly for the matrices whose spectral radius is larger than one; then arbitrarily close to the origin there are states whose trajectory leaves the given bounded polyhedron. For a spectral radius below one every trajectory converges to the origin and mcais ends, if the origin is in the interior of the bounded polyhedron, with a set around the origin; closed loops A + B K with K from solve_dare are of this kind.", "quantifier": "all real square matrices of any size, all polyhedra without equalities that are bounded and contain the origin, all controllable systems with positive definite Q and R", "why_tests_cant": "Tests run a few matrices for finitely many steps; the claim relates the eigenvalues of all matrices to infinite trajectories, and the boundary case of modulus one to a loop that may not end.", "anchors": ["pympc/dynamics/discrete_time_systems.py:mcais", "pympc/dynamics/discrete_time_systems.py:LinearSystem.mcais", "pympc/dynamics/discrete_time_systems.py:LinearSystem.solve_dare"]}
{"id": "C93", "title": "Rounding errors in the membership test", "statement": "contains, evaluated in floating point arithmetic instead of exactly, returns the same answer up to a change of its tolerance by the accumulated rounding error, whatever order numpy uses for the sums; with the default tolerance, float64 and moderately sized data every point of the polyhedron is accepted and accepted points violate the inequalities by little more than the tolerance.", "quantifier": "for all polyhedra with at least one inequality, all points, all tolerances, every rounding function with bounded relative and absolute error, every order of summation", "why_tests_cant": "a test evaluates one order of summation on one machine, and compares with a floating point reference", "anchors": ["pympc/geometry/polyhedron.py:Polyhedron.contains"]}
{"id": "C94", "title": "Rounding errors in simulation", "statement": "The states that simulate and simulate_closed_loop compute in floating point arithmetic stay within an explicit bound of the exact trajectory: the errors add up at most geometrically, stay bounded for all times if the system is stable, and do not destroy the convergence of a stable closed loop; the simulation of a piecewise affine system visits the exact modes as long as the exact trajectory keeps away from the boundaries of the domains by more than the accumulated error.", "quantifier": "for all systems, initial states, input sequences and horizons, every rounding function with bounded relative and absolute error, every order of summation", "why_tests_cant": "no finite set of simulations bounds the error for all horizons and all orders of evaluation", "anchors": ["pympc/dynamics/discrete_time_systems.py:LinearSystem.simulate", "pympc/dynamics/discrete_time_systems.py:LinearSystem.simulate_closed_loop", "pympc/dynamics/discrete_time_systems.py:AffineSystem.simulate", "pympc/dynamics/discrete_time_systems.py:PieceWiseAffineSystem.simulate", "pympc/dynamics/discrete_time_systems.py:PieceWiseAffineSystem.get_mode"]}
{"id": "C95", "title": "The dynamics script of the cart-pole", "statement": "For all positive masses and lengths, cart_pole_dynamics.m computes the equations of motion of the cart-pole in its three contact modes: a motion satisfies the Euler-Lagrange equations if and only if the vector field gives its accelerations, and its energy changes at the rate of the input power. Its linearizations are the matrices that hybrid_mpc_2.ipynb contains as constants, with an error of second order. The LQR gain of the linearization stabilizes the nonlinear cart-pole near the upright position.", "quantifier": "all masses, lengths, stiffnesses, gaps, steps, motions, states and initial states near the origin", "why_tests_cant": "the script is run for one set of parameters; derivatives and the convergence of nonlinear trajectories cannot be sampled", "anchors": ["examples/cart_pole_dynamics.m", "examples/hybrid_mpc_2.ipynb", "pympc/dynamics/discrete_time_systems.py:LinearSystem.solve_dare", "pympc/dynamics/discretization_methods.py:explicit_euler"]}
{"id": "C96", "title": "MPC on a nonlinear plant", "statement": "Both model predictive controllers return the LQR input in their terminal set: the linear one everywhere, the hybrid one where x'P x is below the least stage cost of the domains of the other modes. Hence on a nonlinear plant whose linearization at the origin is the model (of the mode of the origin) all runs that start near the origin are admissible and converge to it geometrically.", "quantifier": "for all systems, weights, horizons, invariant terminal sets, plants that are differentiable at the origin, and initial states near the origin", "why_tests_cant": "a simulation of one plant from a few states does not show stability in a neighbourhood, nor does it cover all plants with the same linearization", "anchors": ["pympc/control/controllers.py:ModelPredictiveController.feedback", "pympc/control/controllers.py:HybridModelPredictiveController.feedback", "pympc/dynamics/discrete_time_systems.py:LinearSystem.solve_dare", "examples/hybrid_mpc.ipynb", "examples/hybrid_mpc_2.ipynb"]}
{"id": "C97", "title": "Sampled control of continuous-time nonlinear plants", "statement": "Let the origin be an equilibrium of dx/dt = f(x, u) at which f is differentiable with derivative (A, B), and S = LinearSystem.from_continuous(A, B, h, 'zero_order_hold'). S is the derivative at the origin of the plant sampled with period h and input held between the samples. The gain of S.solve_dare, the controller of ModelPredictiveController, and HybridModelPredictiveController with S as the mode of the origin, all stabilize the nonlinear plant: the state decays exponentially from a ball around the origin, at all times and not only at the samples. This holds for the cart-pole of cart_pole_dynamics.m for all positive parameters and sampling times. It is false for 'explicit_euler'.", "quantifier": "all plants differentiable at the equilibrium, all sampling times, all positive definite weights, all motions", "why_tests_cant": "simulations with a numerical integrator check a few initial states and mix the integration error with the linearization error", "anchors": ["pympc/dynamics/discretization_methods.py:zero_order_hold", "pympc/dynamics/discrete_time_systems.py:LinearSystem.from_continuous", "pympc/dynamics/discrete_time_systems.py:LinearSystem.solve_dare", "pympc/control/controllers.py:ModelPredictiveController.feedback", "pympc/control/controllers.py:HybridModelPredictiveController.feedback", "examples/cart_pole_dynamics.m"]}
{"id": "C98", "title": "Terminal constraint at the origin", "statement": "With the origin as terminal set, the model predictive controllers (linear, hybrid, and the drake version of the examples) are a linear feedback K x near the origin, K being the first gain of the least-cost run to the origin, and A + B K is stable. Hence the controller of the cart-pole notebook, although designed on a piecewise affine model, stabilizes the nonlinear plant dx/dt = f(x, u) near the origin when its input is held for the sampling time h of the model: the state decays exponentially, at all times.", "quantifier": "for all systems, weights, horizons in which the origin can be reached, constraints with the origin in the interior, plants differentiable at the origin, linearization points, and initial states near the origin", "why_tests_cant": "runs of the notebook show a few initial states of one plant; the claim is about all motions of all plants with this linearization, over an infinite time", "anchors": ["pympc/control/controllers.py:ModelPredictiveController.feedback", "pympc/control/controllers.py:HybridModelPredictiveController.feedback", "pympc/dynamics/discretization_methods.py:zero_order_hold", "examples/pwa_from_urdf/cart_pole_from_urdf.ipynb", "examples/pwa_from_urdf/utils.py:Controller"]}
{"id": "C99", "title": "explicit controller in rounded arithmetic", "statement": "The explicit solution, looked up and evaluated in floating point, finds every parameter of a region, and its input is feasible and optimal up to the lookup tolerance and the rounding errors of the residuals and of the input law.", "quantifier": "for all tables, parameters, rounding functions and orders of summation", "why_tests_cant": "Rounding errors depend on the order of summation chosen by BLAS; tests see one order on one machine, and only parameters near a facet expose them.", "anchors": ["pympc/optimization/parametric_programs.py:ExplicitSolution.get_critical_region", "pympc/optimization/parametric_programs.py:ExplicitSolution.u", "pympc/optimization/parametric_programs.py:CriticalRegion.contains", "pympc/optimization/parametric_programs.py:CriticalRegion.u", "pympc/control/controllers.py:ModelPredictiveController.feedback_explicit"]}
{"id": "C100", "title": "model predictive control under disturbances", "statement": "With terminal cost and gain of solve_dare and an invariant terminal set, the closed loop with bounded additive disturbances keeps the constraints and the controller keeps answering, from every state with a margin to infeasibility, and the state converges to a neighbourhood of the origin whose size goes to zero with the disturbance.", "quantifier": "for all systems, horizons, constraint sets, states with a margin, and disturbance sequences within the bound", "why_tests_cant": "Needs all disturbance sequences over an infinite time; tests simulate the nominal model.", "anchors": ["pympc/control/controllers.py:ModelPredictiveController.feedback", "pympc/control/controllers.py:ModelPredictiveController.feedforward", "pympc/dynamics/discrete_time_systems.py:LinearSystem.solve_dare"]}
{"id": "C101", "title": "Explicit controller in floating point keeps the loop near the origin", "statement": "The first critical region stored by store_explicit_solution for a linear model predictive controller with the terminal cost and gain of solve_dare and an invariant terminal set contains the whole terminal set, and its law is u = K x. In rounded arithmetic (lookup, law and state update rounded, sums in any order) the closed loop of feedback_explicit that starts near the origin always gets an input, which differs from K x by a multiple of the rounding unit, and the state converges to a neighbourhood of the origin whose size is proportional to the square root of the rounding unit.", "quantifier": "for every system, horizon, cost, constraint set, stored table, arithmetic of sufficient precision, order of summation and infinite run from near the origin", "why_tests_cant": "the claim is about every infinite run and every evaluation order; a simulation is one finite run with one order", "anchors": ["pympc/control/controllers.py:ModelPredictiveController.feedback_explicit", "pympc/optimization/parametric_programs.py:MultiParametricQuadraticProgram.explicit_solve", "pympc/optimization/parametric_programs.py:ExplicitSolution.get_critical_region", "pympc/dynamics/discrete_time_systems.py:LinearSystem.simulate"]}
{"id": "C102", "title": "The explicit controller stays close to the on-line one", "statement": "There is one constant per stored table such that, wherever the explicit controller answers, its input differs from the optimal input of the on-line controller by at most that constant times the lookup tolerance (plus the rounding errors)", "quantifier": "all controllers, all stored tables, all states, all rounding modes", "why_tests_cant": "The lookup accepts points up to 1e-7 outside a region, so no sampled state shows whether the gap between the two controllers grows faster than the tolerance", "anchors": ["pympc/control/controllers.py:ModelPredictiveController.feedback_explicit", "pympc/optimization/parametric_programs.py:ExplicitSolution.get_critical_region", "pympc/optimization/parametric_programs.py:CriticalRegion.contains"]}
{"id": "C103", "title": "The stored optimal value in floating point", "statement": "ExplicitSolution.V, evaluated in floating point, is within a computable rounding error plus a multiple of the lookup tolerance of the optimal value of the program", "quantifier": "all programs, all stored tables, all parameters, all rounding modes and orders of summation", "why_tests_cant": "Rounding errors of a quadratic function and the lookup tolerance act together; sampled parameters do not show the worst order of summation", "anchors": ["pympc/optimization/parametric_programs.py:CriticalRegion.V", "pympc/optimization/parametric_programs.py:ExplicitSolution.V", "pympc/control/controllers.py:ModelPredictiveController.feedforward_explicit"]}
{"id": "C104", "title": "The hybrid MPC depends only on the runs of its system", "statement": "Two hybrid MPC controllers whose systems follow each other step by step (modes in another order or repeated, domains described differently or cut into pieces, other coordinates of states and inputs, weights multiplied by c > 0) return None at the same states, costs that differ by the factor c, and corresponding inputs where the optimal ones are unique; a system that can do more, or a longer horizon with a terminal set and cost as in the closed-loop results, never costs more", "quantifier": "all piecewise affine systems, horizons, weights, terminal sets, coordinates, states, exact libraries", "why_tests_cant": "Relates pairs of controllers for all data and compares with all runs", "anchors": ["pympc/control/controllers.py:HybridModelPredictiveController.feedforward", "pympc/control/controllers.py:HybridModelPredictiveController.feedback"]}
{"id": "C105", "title": "The two hybrid controllers agree", "statement": "HybridModelPredictiveController (big-M constants of domains and dynamics, eliminated states, Gurobi) and the hybrid controller class of the examples (big-M constants of the graphs, states kept, drake), built from the same system, horizon, weights and terminal set, answer alike: None at the same states and otherwise the same cost; whenever they select the same sequence of modes they return the same inputs, states and feedback, and loops closed with them coincide as long as they do. The same holds for two solvers of one controller.", "quantifier": "all piecewise affine systems with at least two modes, bounded domains and sharp big-M constants, all horizons, weights, terminal sets, states and exact solvers", "why_tests_cant": "the two implementations use different solvers and different encodings; tests can only compare them at some states of some systems, and a tie between mode sequences makes the inputs differ", "anchors": ["examples/pwa_from_urdf/utils.py:HybridModelPredictiveController", "pympc/control/controllers.py:HybridModelPredictiveController", "pympc/control/controllers.py:HybridModelPredictiveController.feedforward"]}
{"id": "C106", "title": "Laws of the maximal invariant set", "statement": "The set returned by mcais(A, X) depends only on the points of X, grows with X, is carried along by changes of coordinates, scalings and restrictions to invariant subspaces, commutes with intersections, does not change if mcais is applied again, and grows if the system is sampled more slowly; the number of iterations is preserved by maps and does not grow for intersections", "quantifier": "all matrices, polytopes, maps between the systems and numbers of iterations", "why_tests_cant": "The laws relate results for different inputs; sampled inputs with well-separated redundancies never show the descriptions for which they fail", "anchors": ["pympc/dynamics/discrete_time_systems.py:mcais", "pympc/geometry/polyhedron.py:Polyhedron.intersection", "pympc/geometry/polyhedron.py:Polyhedron.remove_redundant_inequalities"]}
