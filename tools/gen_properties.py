import json
P=[]
def p(title, statement, quantifier, why, *anchors):
    P.append(dict(id="C%02d"%(len(P)+1), title=title, statement=statement, quantifier=quantifier, why_tests_cant=why, anchors=list(anchors)))
G="pympc/geometry/polyhedron.py"; U="pympc/geometry/utils.py"; S="pympc/dynamics/discrete_time_systems.py"
N="pympc/optimization/solvers/pnnls.py"; PP="pympc/optimization/parametric_programs.py"; K="pympc/control/controllers.py"
GR="pympc/optimization/solvers/gurobi.py"; PR="pympc/optimization/programs.py"; DM="pympc/dynamics/discretization_methods.py"; DU="pympc/dynamics/utils.py"
EX="examples/pwa_from_urdf/utils.py"; DR="pympc/optimization/solvers/drake.py"

p("Constraint accumulation","After any history of successful add_inequality / add_equality / add_lower_bound / add_upper_bound / add_bounds calls, the set of points satisfying the stored A x <= b, C x = d is exactly the original set intersected with every constraint that was added.",
 "every starting polyhedron of every dimension, every finite sequence of add_* calls, every point x","sequences of calls and dimensions are unbounded; tests sample a few boxes",G+":Polyhedron.add_inequality",G+":Polyhedron.add_equality",G+":Polyhedron.add_bounds")
p("Constraints on selected coordinates","add_inequality/add_equality/add_*_bound with indices=[i0,...,ik] constrains exactly the coordinates x[i0],...,x[ik], in the order in which they were listed, and no other coordinate.",
 "every dimension n, every list of indices, every constraint matrix, every point","the set of index lists is unbounded; tests only use sorted lists",G+":Polyhedron._selection_matrix",G+":Polyhedron.add_lower_bound")
p("Cached attributes are never stale","After any history of constraint additions, normalizations, redundancy removals and attribute reads, the value returned by empty, bounded, radius and center is one that a freshly built polyhedron with the current constraints would be entitled to return.",
 "every history of mutating calls and attribute reads on one polyhedron","staleness depends on the interleaving of reads and mutations, which has unboundedly many shapes",G+":Polyhedron._delete_attributes",G+":Polyhedron.empty",G+":Polyhedron.bounded",G+":Polyhedron.radius",G+":Polyhedron.center")
p("Intersection","P1.intersection(P2) contains exactly the points in both P1 and P2 and leaves both operands unchanged.",
 "every pair of polyhedra of equal dimension, every point","universally quantified over pairs of polyhedra and points",G+":Polyhedron.intersection")
p("Cartesian product","P1.cartesian_product(P2) contains (x,y) iff x is in P1 and y is in P2, including when one or both operands have equality constraints or no constraints.",
 "every pair of polyhedra of any dimensions, every pair of points","universally quantified over pairs of polyhedra and points",G+":Polyhedron.cartesian_product")
p("Membership test","contains(x, tol) returns True iff no inequality is violated by more than tol and no equality residual exceeds tol in absolute value.",
 "every polyhedron, every point of matching dimension, every tolerance","the tests use a polyhedron with at most one kind of equality violation; the claim is over all points",G+":Polyhedron.contains")
p("Normalization preserves the set","normalize() changes neither the set of points of the polyhedron nor the number of constraints, and every row of A and C whose norm exceeds the tolerance gets unit norm.",
 "every polyhedron with floating point (resp. integer) storage, every tolerance >= 0, every point","quantifies over all matrices and points",G+":Polyhedron.normalize")
p("Emptiness test","empty is False only if the polyhedron has a point, and True only if it has none.",
 "every polyhedron with inequalities and equalities","the answer must be right for every constraint system, and the error threshold is on the solution norm",G+":Polyhedron.empty",N+":quadratic_program")
p("Boundedness test","bounded is True iff the polyhedron is empty or contained in some ball.",
 "every polyhedron","boundedness is a statement about all points of every polyhedron",G+":Polyhedron.bounded")
p("Redundancy removal keeps the set","remove_redundant_inequalities() never removes a point from the polyhedron, and adds none when no removed facet is violated by the remaining ones; it never fails on a non-empty polyhedron without equalities.",
 "every non-empty polyhedron, every row ordering, every tolerance in (0,1)","the order in which facets are dropped interacts; quantifies over all polyhedra",G+":Polyhedron.minimal_facets",G+":Polyhedron.remove_redundant_inequalities")
p("Minimality of the facet list","Each facet index returned by minimal_facets() is irredundant: dropping that facet from the returned representation strictly enlarges the set.",
 "every non-empty polyhedron, every returned index","needs a witness point for every facet of every polyhedron",G+":Polyhedron.minimal_facets")
p("Inclusion test","P1.is_included_in(P2) returns True if every point of P1 is in P2; if it returns True every point of P1 satisfies every constraint of P2 within tol; it returns a boolean (does not raise) for every pair of polyhedra of equal dimension.",
 "every pair of polyhedra (bounded, unbounded, empty), every point","quantifies over every point of every pair",G+":Polyhedron.is_included_in")
p("Chebyshev center and radius","If radius r and center c are returned for a polyhedron then every point within distance r of c (in the affine hull of the equalities) is in the polyhedron, and no larger ball fits; r is negative for an empty polyhedron.",
 "every polyhedron, every point of the ball","quantifies over all points of a ball and all competing balls",G+":Polyhedron._chebyshev",G+":Polyhedron.radius",G+":Polyhedron.center")
p("Elimination of equalities","The change of variables computed for a polyhedron with equalities is a bijection between the points of the polyhedron and the points of the reduced inequality-only polyhedron {n | E n <= f}.",
 "every polyhedron with linearly independent equalities, every point","quantifies over all points and systems",G+":Polyhedron._remove_equalities",U+":nullspace_basis")
p("A rejected constraint leaves the polyhedron unchanged","If add_inequality, add_equality or add_bounds raises, the polyhedron describes the same set as before the call.",
 "every polyhedron and every malformed argument","the failure point inside the call depends on the shape of the argument; tests only check that an exception is raised",G+":Polyhedron.add_inequality",G+":Polyhedron.add_bounds")
p("Vertices of a one-dimensional polytope","For a bounded full-dimensional polytope on the line, vertices returns its two endpoints.",
 "every one-dimensional polytope, any number and order of redundant rows","quantifies over all row lists",G+":Polyhedron.vertices")
p("Orthogonal projection","project_to(dims) returns a polyhedron containing exactly the points y for which some point of the polytope has coordinates y in dims (up to the tolerance on facet expansion).",
 "every bounded full-dimensional polytope, every choice of residual dimensions","the expansion loop runs an input-dependent number of iterations",G+":Polyhedron.project_to",G+":convex_hull_method",G+":_expand_simplex")
p("LP optimality","When the LP min f'x s.t. A x <= b, C x = d is feasible and bounded below, linear_program returns a feasible argmin attaining the infimum, with min = f'argmin.",
 "every LP of every size (with exact arithmetic and an exact NNLS kernel)","optimality compares with all feasible points",N+":linear_program",N+":pnnls")
p("LP infeasible/unbounded detection","linear_program returns None fields iff the LP is infeasible or unbounded.",
 "every LP","quantifies over all constraint systems, including nearly feasible ones",N+":linear_program")
p("LP multipliers","The returned multipliers satisfy the KKT system: nonnegative inequality multipliers, stationarity f + A'l + C'n = 0, and complementary slackness; hence strong duality min = -b'l - d'n.",
 "every solvable LP","KKT must hold for every instance",N+":linear_program")
p("QP optimality","For a strictly convex QP, if quadratic_program returns a solution then argmin is feasible and is the unique minimizer, min is its cost, and the multipliers satisfy the KKT system.",
 "every H > 0, f, A, b, C, d of every size","optimality compares with all feasible points",N+":quadratic_program")
p("QP infeasibility detection","quadratic_program returns None fields iff the QP is infeasible.",
 "every QP","quantifies over all constraint systems; failure needs solutions of large norm",N+":quadratic_program")
p("Reported active set","active_set returned by the LP and QP solvers is the set of inequalities that hold with equality at argmin.",
 "every solvable LP/QP","depends on degeneracy, not on sizes that tests vary",N+":linear_program",N+":quadratic_program")
p("Gurobi model encodes the given program","The optimization model built for Gurobi has the same feasible set and objective as the matrices passed by the caller.",
 "every H, f, A, b, C, d","depends on coefficient magnitudes; all points",GR+":linear_expression",GR+":quadratic_expression",GR+":_build_model")
p("Solver dispatch and argument checks","linear_program/quadratic_program/mixed_integer_quadratic_program run exactly the named solver, raise ValueError for unknown names and for a missing C or d.",
 "every solver name and argument combination","quantifies over all strings and argument patterns",PR+":linear_program",PR+":quadratic_program",PR+":mixed_integer_quadratic_program")
p("Simulation follows the dynamics","LinearSystem/AffineSystem.simulate(x0,u) returns N+1 states starting at x0 with x(t+1)=A x(t)+B u(t)+c; simulate_closed_loop equals simulate with u(t)=K x(t).",
 "every system, horizon, input sequence and initial state","unbounded horizon",S+":LinearSystem.simulate",S+":LinearSystem.simulate_closed_loop",S+":AffineSystem.simulate")
p("Condensed dynamics equal the simulation","For the matrices returned by condense, A_bar x0 + B_bar u_bar + c_bar stacks exactly the states reached by stepping the system through the given mode sequence.",
 "every PWA system, every non-empty mode sequence, every x0 and inputs","unbounded horizon and mode sequences",S+":condense_pwa_system",S+":productory",S+":LinearSystem.condense",S+":AffineSystem.condense")
p("PWA simulation","PieceWiseAffineSystem.simulate applies at each step the dynamics of the first domain that contains (x,u) and returns that mode; it raises ValueError exactly when a reached pair lies in no domain.",
 "every PWA system, every input sequence","unbounded horizon; depends on reached states",S+":PieceWiseAffineSystem.simulate",S+":PieceWiseAffineSystem.get_mode")
p("Well-posedness test","is_well_posed() returns True only if no two distinct domains share an open ball of radius larger than tol, and False only if two do.",
 "every PWA system","quantifies over all balls and pairs of domains",S+":PieceWiseAffineSystem.is_well_posed")
p("Maximal invariant set is correct","If mcais returns O then x0 is in O iff the trajectory of x(t+1)=A x(t) from x0 stays in X for all t >= 0.",
 "every A and X accepted by the function, every x0, all (infinitely many) times","the claim is about infinite trajectories",S+":mcais",S+":LinearSystem.mcais")
p("Termination of the invariant set computation","mcais terminates on every input that passes its checks (spectral radius <= 1, X bounded and containing the origin).",
 "every accepted A and X","non-termination cannot be observed by a test",S+":mcais")
p("LQR optimality","For P, K returned by solve_dare, the cost of any N-step input sequence equals 1/2 x0'P x0 - 1/2 xN'P xN plus a nonnegative term that vanishes iff u(t)=K x(t); so K is optimal and V = 1/2 x0' P x0.",
 "every system, Q, R, horizon and input sequence","unbounded horizon; compares with all input sequences",S+":LinearSystem.solve_dare")
p("Controllability test","controllable is True iff every state can be reached from every state in nx steps.",
 "every pair (A,B), every pair of states","quantifies over all states",S+":LinearSystem.controllable")
p("Discretization","zero_order_hold returns the exact sampled dynamics of dx/dt = A x + B u + c for constant u; explicit_euler returns x + h (A x + B u + c).",
 "every A, B, c, h >= 0, x, u","exactness over all matrices; limits of series",DM+":zero_order_hold",DM+":explicit_euler")
p("Symbolic construction","The matrices extracted from a symbolic affine expression reproduce the expression at every point; from_symbolic of a non-affine expression does not silently succeed with a wrong system.",
 "every symbolic expression, every point","quantifies over all expressions",G+":get_matrices_affine_expression",S+":get_state_transition_matrices")
p("Constructors accept exactly coherent data","LinearSystem/AffineSystem/PieceWiseAffineSystem/Polyhedron constructors raise ValueError iff the shapes are incoherent, and a constructed PWA system has equal dimensions across modes.",
 "every combination of shapes","quantifies over all shapes",DU+":check_affine_system",S+":PieceWiseAffineSystem.__init__",G+":Polyhedron.__init__")
p("Condensed cost","The mpQP built by the MPC controllers has, for every x0 and input sequence, objective value equal to the cost of the trajectory 1/2 sum (x'Qx+u'Ru) + 1/2 xN'P xN.",
 "every PWA system, mode sequence, Q, R, P, x0, u","unbounded horizon",K+":condense_optimal_control_problem",K+":ModelPredictiveController._condense_program",K+":HybridModelPredictiveController.get_mpqp")
p("Condensed constraints","The inequalities of the mpQP hold at (x0,u) iff every (x(t),u(t)) of the induced trajectory is in its domain and x(N) is in the terminal set.",
 "every PWA system, mode sequence, x0, u","unbounded horizon",K+":condense_optimal_control_problem")
p("MPC feedforward is optimal","ModelPredictiveController.feedforward(x) returns N inputs whose trajectory satisfies all constraints and minimizes the cost among all admissible input sequences, with V the optimal cost; feedback returns the first input.",
 "every controller and state","compares with all input sequences of every horizon",K+":ModelPredictiveController.feedforward",K+":ModelPredictiveController.feedback",PP+":MultiParametricQuadraticProgram.solve")
p("Critical region optimality","For every x in a critical region returned by explicit_solve_given_active_set, u(x) is the minimizer of the mpQP at x, p(x) its multipliers and V(x) its optimal value.",
 "every mpQP, every active set, every x in the region","infinitely many parameters per region",PP+":MultiParametricQuadraticProgram.explicit_solve_given_active_set",PP+":CriticalRegion")
p("Explicit solution lookup","ExplicitSolution.u/p/V evaluate one and the same region, the first that contains x, and return None iff no region contains x.",
 "every list of regions, every x","quantifies over region lists and points",PP+":ExplicitSolution.get_critical_region",PP+":ExplicitSolution.u",PP+":ExplicitSolution.V")
p("Explicit solver is sound","Every region in the result of explicit_solve is an optimal critical region, whatever active sets were guessed; in the regions' union the explicit and implicit controllers return the same input and cost.",
 "every mpQP, every number of iterations","the exploration loop is unbounded and its active-set guesses can be wrong",PP+":MultiParametricQuadraticProgram.explicit_solve",PP+":MultiParametricQuadraticProgram.explicit_solve_given_point",K+":ModelPredictiveController.feedforward_explicit")
p("Explicit solver covers the feasible set","When explicit_solve terminates, every feasible parameter is covered by some region.",
 "every mpQP, every feasible x","quantifies over all parameters",PP+":MultiParametricQuadraticProgram.explicit_solve")
p("Recursive feasibility","With a terminal set that is invariant and admissible under u=Kx (e.g. computed by mcais), if feedforward(x) is feasible then the problem at the next state A x + B feedback(x) is feasible too, so along the closed loop the controller always has a feasible problem.",
 "every controller, every feasible state, all closed-loop times","unbounded closed-loop histories",K+":ModelPredictiveController",S+":LinearSystem.mcais")
p("Closed-loop cost decrease","With terminal cost P and gain K from solve_dare and an invariant terminal set, the optimal value decreases along the closed loop by at least the stage cost, V(x+) <= V(x) - 1/2(x'Qx+u'Ru).",
 "every controller and feasible state","all states and closed-loop histories",K+":ModelPredictiveController",S+":LinearSystem.solve_dare")
p("MPC versus LQR","V_mpc(x) >= 1/2 x'P x for every feasible x, with equality and the LQR inputs when the LQR trajectory is admissible (x in the mcais).",
 "every feasible state","all states",K+":ModelPredictiveController.feedforward",S+":LinearSystem.solve_dare")
p("Hybrid MPC big-M encoding","A triple (u, z, delta) with binary delta is feasible for the mixed-integer program iff delta selects one mode per step, the induced trajectory follows the dynamics of the selected modes inside their domains, and ends in the terminal set.",
 "every PWA system with bounded domains, every horizon, x0, u, z, delta","unbounded horizon and mode sequences",K+":HybridModelPredictiveController._build_inequalities",K+":HybridModelPredictiveController._bigM_matrices",K+":HybridModelPredictiveController._condense_inequalities",K+":HybridModelPredictiveController._condense_equalities")
p("Hybrid MPC feedforward is optimal","HybridModelPredictiveController.feedforward(x) returns inputs, states and modes that form an admissible PWA trajectory of minimal cost over all input and mode sequences; None iff there is none; the same cost is the optimum of get_mpqp(mode_sequence).",
 "every hybrid controller and state","compares with all mode sequences",K+":HybridModelPredictiveController.feedforward",PP+":MultiParametricMixedIntegerQuadraticProgram.solve")
p("Big-M constants","alpha, beta, gamma are the exact extreme values over the domains; the construction fails (raises) when a domain is unbounded in a needed direction or empty.",
 "every PWA system","extremality over all points of the domains",K+":HybridModelPredictiveController._get_bigM_dynamics",K+":HybridModelPredictiveController._get_bigM_domains")
p("Equality constraints of domains are honoured","When D, X or X_N carries equality constraints C x = d, the trajectories returned by the controllers and the sets returned by mcais satisfy them.",
 "every controller / system whose sets have equalities","depends on inputs no test uses",K+":condense_optimal_control_problem",S+":LinearSystem.mcais",S+":mcais")
p("Plane through points","plane_through_points(points) returns a, d with a'p = d for every given point, |a| = 1 and d >= 0, for every random offset for which it returns.",
 "every list of n points in R^n, every random offset","quantifies over the random draw",U+":plane_through_points")
p("Row-set comparison","same_rows(A,B) / same_vectors return True iff the rows of A can be matched one-to-one with the rows of B (up to closeness, and up to positive scaling if normalize).",
 "every pair of matrices, any order, duplicates","orders and duplicates are unbounded",U+":same_rows",U+":same_vectors")
p("Independent rows","linearly_independent_rows(A) returns indices of linearly independent rows of A, as many as the rank.",
 "every matrix","quantifies over all matrices",U+":linearly_independent_rows")
p("Feasible set of the mpQP","get_feasible_set() contains x iff some u satisfies Au u + Ax x <= b.",
 "every mpQP, every x","all parameters",PP+":MultiParametricQuadraticProgram.get_feasible_set")
p("Aliasing of copies","Mutating the polyhedron returned by intersection/copy with add_* never changes the original polyhedron or the caller's arrays; in-place normalization is visible only through arrays that are shared.",
 "every heap of arrays shared between polyhedra, every history of calls","histories and sharing patterns are unbounded",G+":Polyhedron.intersection",G+":Polyhedron.normalize",PP+":CriticalRegion.facet_center")
p("Voronoi partition of the examples","The cells built by constrained_voronoi for one-dimensional spreads contain exactly the points of X closest to their generator.",
 "every list of distinct points, every query point","quantifies over all query points",EX+":_voronoi_1d",EX+":constrained_voronoi")
p("Example hybrid controller uses the given terminal cost","The example Controller solves the optimal control problem with the terminal cost P it is given.",
 "every P","depends on P differing from Q, which the notebook never tests",EX+":Controller.__init__")
p("Closed loop of the MPC","With terminal cost and gain of solve_dare and an invariant terminal set, the closed loop started at a state with a solution runs forever, satisfies the constraints at all times, accumulates stage costs of at most V(x0), and converges to the origin if Q is positive definite.",
 "every controller, start state and closed-loop time","infinite executions",K+":ModelPredictiveController.feedback",S+":LinearSystem.solve_dare")
p("Explicit MPC","After store_explicit_solution, feedforward_explicit and feedback_explicit return the optimal inputs and cost on the stored regions, (None, None) outside, and raise ValueError before.",
 "every controller and state, every number of iterations of the explicit solver","all states and region lists",K+":ModelPredictiveController.store_explicit_solution",K+":ModelPredictiveController.feedforward_explicit",K+":ModelPredictiveController.feedback_explicit")
p("Gurobi wrappers report the solution","The dictionaries returned by the Gurobi wrappers hold a minimizer, its cost, multipliers satisfying the KKT conditions and an active set of active constraints, or None everywhere if there is no minimizer; the mixed-integer wrapper minimizes over binary values of the variables from nc on.",
 "every linear, quadratic and mixed-integer program, every answer of an exact Gurobi","needs Gurobi, and quantifies over all programs","pympc/optimization/solvers/gurobi.py:linear_program","pympc/optimization/solvers/gurobi.py:quadratic_program","pympc/optimization/solvers/gurobi.py:mixed_integer_quadratic_program","pympc/optimization/solvers/gurobi.py:_reorganize_solution")
p("The solvers agree","'pnnls' and 'gurobi' return the same minimum on solvable linear programs and the same minimizer on strictly convex quadratic programs for which 'pnnls' returns a solution.",
 "every program without tiny entries","two solvers compared on all programs","pympc/optimization/programs.py:linear_program","pympc/optimization/programs.py:quadratic_program")
p("Convex hull of points","from_convex_hull(points) returns a polyhedron whose points are exactly the convex combinations of the given points.",
 "every finite list of points of one dimension, every convex-hull routine meeting its contract","all finite sets of points and all dimensions",G+":Polyhedron.from_convex_hull")
p("Active-set guesses of the explicit solver","At every point of a facet of a critical region, the active set that explicit_solve guesses for the other side of the facet is optimal too: its region contains the facet, with the same minimizer, multipliers and value.",
 "every mpQP, every active set, every facet and every point of it","quantifies over all programs, facets and points of the facets",PP+":MultiParametricQuadraticProgram.explicit_solve",PP+":MultiParametricQuadraticProgram.explicit_solve_given_active_set")
p("Facet centers and exploration steps","facet_center(i) returns the center of a largest ball of the i-th facet, and stepping from it along the facet's normal by more than the tolerance leaves the region.",
 "every polyhedron in any dimension, every facet, every step","quantifies over all polyhedra and all balls of the facet",PP+":CriticalRegion.facet_center",PP+":MultiParametricQuadraticProgram.explicit_solve")
p("The drake LP wrapper returns a solution with Lagrange multipliers","For a linear program and an exact drake, solvers/drake.py:linear_program returns a minimizer, its cost, the constraints active at it and multipliers that satisfy the KKT conditions; None everywhere if there is no minimizer.",
 "every linear program with any number of inequalities and equalities","multipliers are recomputed from the active set with a pseudo-inverse, whose sign and support are not controlled",DR+":linear_program")
p("The drake QP wrapper returns a solution with Lagrange multipliers","For a strictly convex quadratic program and an exact drake, solvers/drake.py:quadratic_program returns the minimizer, its cost, the constraints active at it and multipliers that satisfy the KKT conditions; None everywhere if there is no minimizer.",
 "every strictly convex quadratic program with any number of inequalities and equalities","multipliers are recomputed by inverting a Gram matrix of the nearly active constraints",DR+":quadratic_program")
p("The drake MIQP wrapper solves the given program","For an exact drake, solvers/drake.py:mixed_integer_quadratic_program returns a minimizer over the points whose entries from number nc on are binary, and its cost, or None; all three drake wrappers raise ValueError if only one of C and d is given.",
 "every mixed-integer program, every number nc of continuous variables","quantifies over all programs",DR+":mixed_integer_quadratic_program")
p("Vertices are the extreme points","For a full-dimensional polytope (given by inequalities, and equalities that leave one or more degrees of freedom) Polyhedron.vertices returns exactly its extreme points, and the polytope is their convex hull; for empty and for lower-dimensional polyhedra it returns None.",
 "every polytope in any dimension, with any number of inequalities and independent equalities","quantifies over all polytopes; the routine changes coordinates, calls Qhull with the Chebyshev center, and changes back",G+":vertices")
p("Closed loop of the hybrid MPC","With a terminal set and a terminal cost for which some mode and input keep the state in the set and decrease the cost by the stage cost, the closed loop of HybridModelPredictiveController never becomes infeasible, respects the domains of the selected modes, decreases the optimal value by at least the stage cost, and converges to the origin.",
 "all PWA systems, costs, terminal sets, horizons >= 1, initial states with an admissible run, Gurobi solving the programs along the loop","recursive feasibility and stability are what the terminal ingredients of the controller are for",K+":HybridModelPredictiveController.feedback",K+":HybridModelPredictiveController.feedforward")
p("Linear MPC workflow","For a controllable linear system, positive definite Q and R and bounds on x and u with the origin inside, the sequence of calls of examples/linear_mpc.ipynb (solve_dare, from_bounds, cartesian_product, mcais, ModelPredictiveController) succeeds, and the loop calling feedback from a feasible state runs for any number of steps, respects the bounds and converges to the origin.",
 "all controllable (A, B), positive definite Q and R, bounds, horizons >= 1, feasible initial states","this is the documented use of the library; each step must establish what the next one needs",S+":LinearSystem.solve_dare",S+":LinearSystem.mcais",K+":ModelPredictiveController.feedback",G+":cartesian_product",G+":from_bounds")
p("Trajectory plots show the data","plot_input_sequence draws, for each input component, the step function whose value on (k h, (k+1) h] is that component of u_k; plot_state_trajectory and plot_output_trajectory draw the broken line through the points (k h, component of x_k or of C x_k); bounds are drawn as constants; plot_state_space_trajectory draws the broken line through the selected components of the states, labels each point and marks the first.",
 "all trajectories of any length and dimension, all time steps > 0, all bounds","quantifies over all data; only single plots can be inspected","pympc/plot.py:plot_input_sequence","pympc/plot.py:plot_state_trajectory","pympc/plot.py:plot_output_trajectory","pympc/plot.py:plot_state_space_trajectory")
p("Plot of a polyhedron is its projection","Polyhedron.plot draws a closed path that goes around exactly the projection of the polytope onto the two residual dimensions, prints a message and draws nothing for empty or unbounded polyhedra, and raises ValueError unless there are two residual dimensions.",
 "every polytope in any dimension, every pair of dimensions","quantifies over all polytopes; the path goes through the vertices of the projection in the order found by Qhull",G+":plot")
p("Plots of the explicit controller","plot_state_space_partition draws each critical region and on request its active set at the center of the region; plot_optimal_value_function draws the feasible set and the level sets of the optimal value on an equidistant grid over the bounding box of the feasible set; both raise ValueError unless there are two states and the explicit solution is stored.",
 "all controllers with two states, all explicit solutions, all grids","quantifies over all explicit solutions",K+":ModelPredictiveController.plot_state_space_partition",K+":ModelPredictiveController.plot_optimal_value_function")
p("Relaxations of a disjunction","The disjunctive-inequalities notebook relaxes 'x in P1 or x in P2' for two polytopes P1 and P2. The big-M cell produces the big-M relaxation written in its text (A_1 x <= b_1 + M delta, A_2 x <= b_2 + M (1 - delta), delta in [0, 1]), and the convex-hull cell produces the convex hull of the union of P1 and P2; with delta = 0 or 1 the constraints are those of P1 or of P2",
 "for all nonempty polytopes P1 and P2 of the same dimension and all vectors M large enough","The two formulations are the basis of the mixed-integer encodings of the hybrid controllers","examples/disjunctive_inequalities.ipynb",G+":add_bounds",G+":intersection",G+":project_to")
p("Invariant-set notebook","The notebook on maximal constraint-admissible invariant sets (solve_dare, bounds, cartesian_product, mcais, X_cl = states whose LQR input is admissible, closed-loop simulations) succeeds, and O_inf consists of exactly the states from which every simulated closed-loop trajectory stays in X_cl; trajectories from O_inf stay in O_inf and converge to the origin.",
 "all controllable linear systems, all positive definite Q and R, all boxes with the origin inside, trajectories of any length","the set is a statement about infinitely many trajectories of unbounded length","examples/maximal_constraint_admissible_set.ipynb",S+":LinearSystem.mcais",S+":LinearSystem.simulate_closed_loop",S+":LinearSystem.solve_dare")
p("Hybrid MPC notebooks","The notebooks on hybrid MPC (PieceWiseAffineSystem, solve_dare and mcais for the mode of the origin, HybridModelPredictiveController, then the loop u = feedback(x), x = simulate(x, [u])[0][1]) succeed; from every state with an admissible run the loop never fails, every pair (x, u) lies in a domain, the next state is that of this domain, and the state approaches the origin.",
 "all piecewise affine systems on bounded domains, one of which has the origin inside and a linear controllable system; all horizons; loops of any length","the loop composes four modules; its invariant is a statement about all executions","examples/hybrid_mpc.ipynb","examples/hybrid_mpc_2.ipynb",S+":PieceWiseAffineSystem",K+":HybridModelPredictiveController")
p("Explicit solver terminates","explicit_solve of the multi-parametric QP stops for every strictly convex program and every step size, after finitely many iterations, and no active set is listed twice in the result.",
 "all strictly convex parametric programs with at least one constraint, all step sizes, all exact numerical libraries","a while loop over a buffer that grows: no bound on the number of iterations is visible in the code",PP+":MultiParametricQuadraticProgram.explicit_solve",PP+":MultiParametricQuadraticProgram.explicit_solve_given_point")
p("Explicit controller in closed loop","The explicit controller (store_explicit_solution, then feedforward_explicit and feedback_explicit) is equivalent to the on-line controller (feedforward and feedback): both return the same inputs and costs at every state, so the loop closed with feedback_explicit keeps the constraints, decreases the optimal cost and converges to the origin as the one closed with feedback does.",
 "for all linear systems, horizons, costs, domains, terminal sets, states and all times","The explicit controller is computed off-line in order to replace the on-line one; it is used in the loop without further checks.",K+":ModelPredictiveController.store_explicit_solution",K+":ModelPredictiveController.feedforward_explicit",K+":ModelPredictiveController.feedback_explicit",PP+":ExplicitSolution.get_critical_region")
p("The explicit solution is a continuous function with a convex value","For a strictly convex multiparametric QP the regions returned by explicit_solve define one function of the parameter: where regions overlap their minimizers and values agree, and minimizer and value are continuous on the union of the regions. If the objective is convex in (x, u) jointly, as for the MPC controllers, the value is convex; for the linear MPC controller the set of states with an admissible input sequence and the optimal cost are convex.",
 "all programs with positive definite Huu, all regions returned, all parameters in them; for the controller all linear systems, weights, horizons, states","Lookup takes the first region that matches; the result must not depend on which one, and must not jump.",PP+":explicit_solve",PP+":ExplicitSolution",K+":feedforward")
p("The value of the MPC controller is an infinite-horizon cost",
  "With P and K of solve_dare, Q positive definite and a terminal set that is invariant under u = K x: a value V returned by feedforward is the limit of the stage costs of an admissible infinite trajectory (the N returned inputs, then u = K x), the least over all that reach the terminal set within N steps; a longer horizon never loses a feasible state and never increases V; and if the terminal set contains a neighbourhood of the origin, from some horizon on V is the least cost over all admissible infinite trajectories.",
  "for all linear systems, weights, constraint sets, horizons and states x with a signal of finite cost below 1/2 x'P x + 5e13",
  "The terminal cost and set are chosen (docstring, notebooks) so that the finite-horizon program stands for the infinite-horizon regulator; a wrong terminal weight, an off-by-one in the horizon or a missing factor 1/2 would break exactly this.",
  K+":ModelPredictiveController", K+":feedforward", K+":feedback", S+":solve_dare")
p("The optimizer is a Lipschitz, piecewise affine function of the parameter",
  "For a strictly convex multiparametric QP with m constraints at most 2^m regions of explicit_solve_given_active_set cover exactly the feasible parameters, also when constraints are degenerate; on each region the minimizer is the affine function u and the value the quadratic function V of the region; and one constant bounds the change of the minimizer relative to the change of the parameter. For the linear MPC controller the inputs returned by feedforward and feedback are such a function of the state.",
  "all programs with positive definite Huu and all parameters; for the controller all linear systems, weights, horizons, constraint sets and states",
  "The explicit solution is usable as a control law only because of this: finitely many regions suffice, none is missed through degeneracy, and a small error in the state estimate changes the input by a proportionally small amount.",
  PP+":MultiParametricQuadraticProgram", PP+":explicit_solve_given_active_set", K+":feedforward", K+":feedback")
p("The MPC law depends only on the meaning of its data",
  "Two linear MPC controllers built for the same control problem return the same inputs and costs (and None at the same states): whatever the order, scaling or redundancy of the rows of domain and terminal set, whatever exact numerical library is used, and in any coordinates of states and inputs (the answers correspond). With symmetric sets the law is odd: at -x the negated inputs and the same cost are returned.",
  "all linear systems, weights, horizons, constraint sets, bijective changes of coordinates, states",
  "The pnnls solver works on rows of the constraint matrices and decides infeasibility by a tolerance on their residual; that none of this leaks into the answers is a relation between pairs of executions.",
  K+":ModelPredictiveController", K+":feedforward", K+":feedback", N+":quadratic_program")
p("Scaling of the weights",
  "Multiplying Q, R and P by the same positive factor c changes neither the inputs returned by the linear MPC controller nor the states at which it returns None, and multiplies the cost by c.",
  "all linear systems, weights, horizons, constraint sets, states and factors c > 0",
  "An invariance between pairs of executions, for all problems and factors; it depends on the units of the threshold in the solver.",
  K+":feedforward", K+":feedback", N+":quadratic_program")
p("Hybrid MPC and linear MPC agree where the dynamics is one",
  "If all modes of a PWA system have the same linear dynamics and their domains together make up D (a single mode, or a domain cut into pieces in any way, with overlaps), the hybrid MPC controller and the linear MPC controller for D return the same inputs, cost and feedback, and the hybrid controller returns None only where the linear one does.",
  "all such systems with non-empty bounded domains without equalities, all weights, horizons, terminal sets and states; MIQP solver exact on the program",
  "Two independent implementations (condensed QP with pnnls; big-M MIQP with Gurobi) of one specification, for all systems and ways to cut the domain.",
  K+":HybridModelPredictiveController", K+":HybridModelPredictiveController.feedforward", K+":ModelPredictiveController.feedforward")
p("Closed loop of the drake controller of the examples",
  "If the terminal set is invariant for the PWA system under some input with the terminal cost decreasing by the stage cost, the loop closed with the hybrid controller of the examples never fails from a state with an admissible run: feedback returns an input at every step, states and inputs stay in the domains, the values decrease by the stage costs, and with positive definite Q the state converges to the origin.",
  "all PWA systems, weights, horizons, terminal sets and initial states, all executions of the loop; drake solver exact on the programs met",
  "Induction over executions on top of the encoding, whose indicator variables are cut at 1e-6 and whose big-M constants come from linear programs.",
  EX+":Controller", EX+":HybridModelPredictiveController.feedforward", EX+":HybridModelPredictiveController.feedback")
p("The cart-pole notebook",
  "The PWA model built in the notebook has one mode per linearization angle, each with the sampled dynamics of its linearization on the slice of X around its angle, and the slices cover X x U; the controller of the notebook is built, and with the input that it returns held between two samples the sampled states of a plant equal to its linearizations converge to the origin from every state with a run to the origin.",
  "all numbers of states, bounds, linearization angles, sampling times, horizons, weights, plants and executions; drake solver exact on the programs met",
  "The composition of linearization, zero-order hold, Voronoi partition, big-M encoding and closed loop; no test runs it.",
  "examples/pwa_from_urdf/cart_pole_from_urdf.ipynb", EX+":pwa_from_RigidBodyPlant", EX+":Controller")
p("The example controller does not depend on its history",
  "The answers of feedforward and feedback of the controller of the examples depend on the state passed and on nothing else: whatever calls were made before on the same object, also ones that raised half-way through set_initial_condition, they are those of a freshly built controller.",
  "all PWA systems, weights, horizons, terminal sets, finite sequences of calls with states of any length, all drake solvers that are functions of the program",
  "The object keeps one mathematical program and overwrites the bounds of x(0) entry by entry; an entry left over from an earlier or failed call would silently change the plan.",
  EX+":HybridModelPredictiveController.set_initial_condition", EX+":HybridModelPredictiveController.feedforward", EX+":HybridModelPredictiveController.feedback")
p("The feasible set is a region of attraction",
  "For linear MPC with P, K from solve_dare, positive definite Q, an invariant terminal set around the origin and a bounded domain: from every state of the polyhedron that get_feasible_set returns, the closed loop runs forever inside the domain and converges to the origin, and at every state outside feedback returns None.",
  "all linear systems, weights, horizons, domains, terminal sets, numbers of states and inputs, random offsets and executions",
  "What users plot as the region of attraction: it connects the projection of the condensed program with the closed loop.",
  PP+":MultiParametricQuadraticProgram.get_feasible_set", K+":ModelPredictiveController.feedback", K+":ModelPredictiveController.feedforward")
p("Membership test respects the set operations",
 "contains accepts x in the intersection iff both polyhedra accept x, (x, y) in the cartesian product iff the factors accept x and y; a larger tolerance accepts more; normalize does not change the answer; if P1 is included in P2, then P2 accepts every point of P1.",
 "all polyhedra, points, tolerances","the sets that the library combines are the sets it tests",G+":Polyhedron.contains",G+":Polyhedron.intersection",G+":Polyhedron.cartesian_product",G+":Polyhedron.normalize",G+":Polyhedron.is_included_in")
p("Linear, affine and piecewise affine systems agree",
 "A LinearSystem behaves as the AffineSystem with zero offset and as the one-mode PieceWiseAffineSystem (simulate, condense, from_continuous); simulating over u1 followed by u2 is simulating twice; linear simulation superposes.",
 "all systems, horizons, states, inputs","relates runs of different objects of unbounded length",S+":LinearSystem.simulate",S+":AffineSystem.simulate",S+":PieceWiseAffineSystem.simulate",S+":LinearSystem.condense",S+":LinearSystem.simulate_closed_loop",S+":LinearSystem.from_continuous",S+":AffineSystem.from_continuous")
p("Systems of the hybrid MPC notebooks","The cells of hybrid_mpc.ipynb and hybrid_mpc_2.ipynb that define the systems and the domains succeed for all positive parameters; the domains cover the box of bounds and overlap only on the contact surfaces; on its domain each mode is the explicit Euler step of the pendulum (cart-pole) with one-sided springs; one step of simulate differs from the spring model by at most h k/m 1e-7 (h k/(l mp) 1e-7) and agrees with it outside strips of width 1e-7; the mode of the origin is controllable, the controller is built, and (invariant terminal set, exact solver) the closed loop outside the strips follows the spring model and approaches the origin.",
 "all positive parameters, horizons, positive definite weights, states with an admissible run, loops of any length","the claims quantify over all physical parameters and all executions; the notebooks run one set of numbers","examples/hybrid_mpc.ipynb","examples/hybrid_mpc_2.ipynb",S+":LinearSystem.from_continuous",S+":AffineSystem.from_continuous",S+":PieceWiseAffineSystem",G+":Polyhedron.from_bounds",K+":HybridModelPredictiveController")
p("The stability test of mcais","With eigenvalues computed exactly, mcais raises ValueError exactly for the matrices whose spectral radius is larger than one; then arbitrarily close to the origin there are states whose trajectory leaves the given bounded polyhedron. For a spectral radius below one every trajectory converges to the origin and mcais ends, if the origin is in the interior of the bounded polyhedron, with a set around the origin; closed loops A + B K with K from solve_dare are of this kind.",
 "all real square matrices of any size, all polyhedra without equalities that are bounded and contain the origin, all controllable systems with positive definite Q and R","Tests run a few matrices for finitely many steps; the claim relates the eigenvalues of all matrices to infinite trajectories, and the boundary case of modulus one to a loop that may not end.",S+":mcais",S+":LinearSystem.mcais",S+":LinearSystem.solve_dare")
p("Rounding errors in the membership test","contains, evaluated in floating point arithmetic instead of exactly, returns the same answer up to a change of its tolerance by the accumulated rounding error, whatever order numpy uses for the sums; with the default tolerance, float64 and moderately sized data every point of the polyhedron is accepted and accepted points violate the inequalities by little more than the tolerance.",
 "for all polyhedra with at least one inequality, all points, all tolerances, every rounding function with bounded relative and absolute error, every order of summation","a test evaluates one order of summation on one machine, and compares with a floating point reference",G+":Polyhedron.contains")
p("Rounding errors in simulation","The states that simulate and simulate_closed_loop compute in floating point arithmetic stay within an explicit bound of the exact trajectory: the errors add up at most geometrically, stay bounded for all times if the system is stable, and do not destroy the convergence of a stable closed loop; the simulation of a piecewise affine system visits the exact modes as long as the exact trajectory keeps away from the boundaries of the domains by more than the accumulated error.",
 "for all systems, initial states, input sequences and horizons, every rounding function with bounded relative and absolute error, every order of summation","no finite set of simulations bounds the error for all horizons and all orders of evaluation",S+":LinearSystem.simulate",S+":LinearSystem.simulate_closed_loop",S+":AffineSystem.simulate",S+":PieceWiseAffineSystem.simulate",S+":PieceWiseAffineSystem.get_mode")
p("The dynamics script of the cart-pole","For all positive masses and lengths, cart_pole_dynamics.m computes the equations of motion of the cart-pole in its three contact modes: a motion satisfies the Euler-Lagrange equations if and only if the vector field gives its accelerations, and its energy changes at the rate of the input power. Its linearizations are the matrices that hybrid_mpc_2.ipynb contains as constants, with an error of second order. The LQR gain of the linearization stabilizes the nonlinear cart-pole near the upright position.",
 "all masses, lengths, stiffnesses, gaps, steps, motions, states and initial states near the origin","the script is run for one set of parameters; derivatives and the convergence of nonlinear trajectories cannot be sampled","examples/cart_pole_dynamics.m","examples/hybrid_mpc_2.ipynb",S+":LinearSystem.solve_dare",DM+":explicit_euler")
p("MPC on a nonlinear plant","Both model predictive controllers return the LQR input in their terminal set: the linear one everywhere, the hybrid one where x'P x is below the least stage cost of the domains of the other modes. Hence on a nonlinear plant whose linearization at the origin is the model (of the mode of the origin) all runs that start near the origin are admissible and converge to it geometrically.",
 "for all systems, weights, horizons, invariant terminal sets, plants that are differentiable at the origin, and initial states near the origin","a simulation of one plant from a few states does not show stability in a neighbourhood, nor does it cover all plants with the same linearization",K+":ModelPredictiveController.feedback",K+":HybridModelPredictiveController.feedback",S+":LinearSystem.solve_dare","examples/hybrid_mpc.ipynb","examples/hybrid_mpc_2.ipynb")
p("Sampled control of continuous-time nonlinear plants","Let the origin be an equilibrium of dx/dt = f(x, u) at which f is differentiable with derivative (A, B), and S = LinearSystem.from_continuous(A, B, h, 'zero_order_hold'). S is the derivative at the origin of the plant sampled with period h and input held between the samples. The gain of S.solve_dare, the controller of ModelPredictiveController, and HybridModelPredictiveController with S as the mode of the origin, all stabilize the nonlinear plant: the state decays exponentially from a ball around the origin, at all times and not only at the samples. This holds for the cart-pole of cart_pole_dynamics.m for all positive parameters and sampling times. It is false for 'explicit_euler'.",
 "all plants differentiable at the equilibrium, all sampling times, all positive definite weights, all motions","simulations with a numerical integrator check a few initial states and mix the integration error with the linearization error",DM+":zero_order_hold",S+":LinearSystem.from_continuous",S+":LinearSystem.solve_dare",K+":ModelPredictiveController.feedback",K+":HybridModelPredictiveController.feedback","examples/cart_pole_dynamics.m")
p("Terminal constraint at the origin","With the origin as terminal set, the model predictive controllers (linear, hybrid, and the drake version of the examples) are a linear feedback K x near the origin, K being the first gain of the least-cost run to the origin, and A + B K is stable. Hence the controller of the cart-pole notebook, although designed on a piecewise affine model, stabilizes the nonlinear plant dx/dt = f(x, u) near the origin when its input is held for the sampling time h of the model: the state decays exponentially, at all times.",
 "for all systems, weights, horizons in which the origin can be reached, constraints with the origin in the interior, plants differentiable at the origin, linearization points, and initial states near the origin","runs of the notebook show a few initial states of one plant; the claim is about all motions of all plants with this linearization, over an infinite time",
 K+":ModelPredictiveController.feedback",K+":HybridModelPredictiveController.feedback",DM+":zero_order_hold","examples/pwa_from_urdf/cart_pole_from_urdf.ipynb",EX+":Controller")
p("explicit controller in rounded arithmetic","The explicit solution, looked up and evaluated in floating point, finds every parameter of a region, and its input is feasible and optimal up to the lookup tolerance and the rounding errors of the residuals and of the input law.",
 "for all tables, parameters, rounding functions and orders of summation","Rounding errors depend on the order of summation chosen by BLAS; tests see one order on one machine, and only parameters near a facet expose them.",PP+":ExplicitSolution.get_critical_region",PP+":ExplicitSolution.u",PP+":CriticalRegion.contains",PP+":CriticalRegion.u",K+":ModelPredictiveController.feedback_explicit")
p("model predictive control under disturbances","With terminal cost and gain of solve_dare and an invariant terminal set, the closed loop with bounded additive disturbances keeps the constraints and the controller keeps answering, from every state with a margin to infeasibility, and the state converges to a neighbourhood of the origin whose size goes to zero with the disturbance.",
 "for all systems, horizons, constraint sets, states with a margin, and disturbance sequences within the bound","Needs all disturbance sequences over an infinite time; tests simulate the nominal model.",K+":ModelPredictiveController.feedback",K+":ModelPredictiveController.feedforward",S+":LinearSystem.solve_dare")
p("Explicit controller in floating point keeps the loop near the origin","The first critical region stored by store_explicit_solution for a linear model predictive controller with the terminal cost and gain of solve_dare and an invariant terminal set contains the whole terminal set, and its law is u = K x. In rounded arithmetic (lookup, law and state update rounded, sums in any order) the closed loop of feedback_explicit that starts near the origin always gets an input, which differs from K x by a multiple of the rounding unit, and the state converges to a neighbourhood of the origin whose size is proportional to the square root of the rounding unit.",
 "for every system, horizon, cost, constraint set, stored table, arithmetic of sufficient precision, order of summation and infinite run from near the origin","the claim is about every infinite run and every evaluation order; a simulation is one finite run with one order",K+":ModelPredictiveController.feedback_explicit",PP+":MultiParametricQuadraticProgram.explicit_solve",PP+":ExplicitSolution.get_critical_region",S+":LinearSystem.simulate")
p("The explicit controller stays close to the on-line one","There is one constant per stored table such that, wherever the explicit controller answers, its input differs from the optimal input of the on-line controller by at most that constant times the lookup tolerance (plus the rounding errors)",
 "all controllers, all stored tables, all states, all rounding modes","The lookup accepts points up to 1e-7 outside a region, so no sampled state shows whether the gap between the two controllers grows faster than the tolerance",K+":ModelPredictiveController.feedback_explicit",PP+":ExplicitSolution.get_critical_region",PP+":CriticalRegion.contains")
p("The stored optimal value in floating point","ExplicitSolution.V, evaluated in floating point, is within a computable rounding error plus a multiple of the lookup tolerance of the optimal value of the program",
 "all programs, all stored tables, all parameters, all rounding modes and orders of summation","Rounding errors of a quadratic function and the lookup tolerance act together; sampled parameters do not show the worst order of summation",PP+":CriticalRegion.V",PP+":ExplicitSolution.V",K+":ModelPredictiveController.feedforward_explicit")
p("The hybrid MPC depends only on the runs of its system","Two hybrid MPC controllers whose systems follow each other step by step (modes in another order or repeated, domains described differently or cut into pieces, other coordinates of states and inputs, weights multiplied by c > 0) return None at the same states, costs that differ by the factor c, and corresponding inputs where the optimal ones are unique; a system that can do more, or a longer horizon with a terminal set and cost as in the closed-loop results, never costs more",
 "all piecewise affine systems, horizons, weights, terminal sets, coordinates, states, exact libraries","Relates pairs of controllers for all data and compares with all runs",K+":HybridModelPredictiveController.feedforward",K+":HybridModelPredictiveController.feedback")
p("The two hybrid controllers agree","HybridModelPredictiveController (big-M constants of domains and dynamics, eliminated states, Gurobi) and the hybrid controller class of the examples (big-M constants of the graphs, states kept, drake), built from the same system, horizon, weights and terminal set, answer alike: None at the same states and otherwise the same cost; whenever they select the same sequence of modes they return the same inputs, states and feedback, and loops closed with them coincide as long as they do. The same holds for two solvers of one controller.",
 "all piecewise affine systems with at least two modes, bounded domains and sharp big-M constants, all horizons, weights, terminal sets, states and exact solvers","the two implementations use different solvers and different encodings; tests can only compare them at some states of some systems, and a tie between mode sequences makes the inputs differ",EX+":HybridModelPredictiveController",K+":HybridModelPredictiveController",K+":HybridModelPredictiveController.feedforward")
p("Laws of the maximal invariant set","The set returned by mcais(A, X) depends only on the points of X, grows with X, is carried along by changes of coordinates, scalings and restrictions to invariant subspaces, commutes with intersections, does not change if mcais is applied again, and grows if the system is sampled more slowly; the number of iterations is preserved by maps and does not grow for intersections",
 "all matrices, polytopes, maps between the systems and numbers of iterations","The laws relate results for different inputs; sampled inputs with well-separated redundancies never show the descriptions for which they fail",S+":mcais",G+":Polyhedron.intersection",G+":Polyhedron.remove_redundant_inequalities")
open('/verif/properties.jsonl','w').write("\n".join(json.dumps(x) for x in P)+"\n")
print(len(P))
