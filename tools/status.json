{
"C01": ["proved", "every finite history of successful add_* calls, any shapes"],
"C02": ["partial", "proved for strictly increasing index lists; order, and negative indices refuted (indices are used as a set of nonnegative positions)"],
"C03": ["partial", "proved for every history of reads and (accepted or rejected) additions, any library; with normalize and exact redundancy removals: empty, bounded=False, radius, center right for the current set; refuted for bounded after normalize and for radius after a removal within tolerance"],
"C04": ["proved", "every pair of coherent polyhedra of equal dimension; absence of side effects on the operands: see C55"],
"C05": ["proved", "any number (including zero) of inequalities and equalities in each factor"],
"C06": ["partial", "The literal claim is false for two equalities and for no inequality (refuted); proved for at most one equality and at least one inequality; C06_contains_exact says what is computed for every polyhedron"],
"C07": ["partial", "proved for arrays of floats; refuted for arrays of integers (in-place division truncates)"],
"C08": ["partial", "exact criterion proved (points of norm below 10^7); literal statement refuted by {x >= 1e8}"],
"C09": ["partial", "exact for non-empty polyhedra without near-degenerate recession data: True only if bounded, polytopes give True; literal statement refuted by tolerances"],
"C10": ["partial", "never fails and never loses a point: proved; no point added: proved under the redundancy gap, refuted without"],
"C100": ["partial", "Proved with Q positive definite and costs below 5e13 (without them convergence fails). C100_robust takes the margin (every state of cost at most rho has a neighbourhood of states with solutions of bounded cost) as a hypothesis, which C100_margin_refuted shows to be necessary; C100_local needs none but is local."],
"C101": ["partial", "Proved for every arithmetic of precision at least u0, a number that depends on the problem and is not computed; the off-line computation (matrices, table) is exact. C101_first: exact arithmetic."],
"C102": ["proved", "For data meeting the documented assumptions (mpc_data) and exact solvers; the input is the first component of the sequence, in the largest-entry norm. Where no admissible sequence exists there is no optimal input to compare with. C102_loop carries the bound into the closed loop under the margin hypothesis of C100_robust."],
"C103": ["proved", "For mpQP data meeting the documented assumptions and an off-line computation in exact arithmetic (the table is the exact one); every rounding function with bounded relative and absolute error; where the program is infeasible there is no optimal value to compare with. In float64 the rounding part is below 2.5e-8 up to 498 parameters and terms up to 10^5 (C103_float64)."],
"C104": ["proved", "Hypotheses of C48: domains and terminal set without equalities, Gurobi exact on both programs, which have no nonzero entries below 1e-9."],
"C105": ["proved", "Hypotheses of C48 and C57 on the data (no equalities, bounded domains, big-M constants not in (0, 1e-6)) and exact solvers. C105_tie_refuted: the condition that the modes are equal cannot be dropped."],
"C106": ["partial", "Number of iterations: proved. Results: proved if no redundancy is within the tolerance 1e-7 of the redundancy removal; without it they depend on the description of the set (C106_description_refuted)."],
"C11": ["proved", "with and without (independent) equalities; witness violates the facet by tol or more"],
"C12": ["partial", "proved for non-empty bounded P1; raises TypeError for empty P1 or P1 unbounded in a facet direction (refuted)"],
"C13": ["partial", "largest ball proved for every non-empty polyhedron in which balls of arbitrary radius do not fit; negative radius for empty polyhedra without constant rows; refuted for {0 x <= -1} (None) and unbounded sets with equalities (ValueError)"],
"C14": ["proved", "bijection and isometry for independent equalities; ValueError otherwise"],
"C15": ["partial", "proved for one-dimensional right-hand sides; refuted for column vectors and add_bounds"],
"C16": ["partial", "proved when no facet is redundant by less than tol and the segment has a point of norm below 10^7; refuted otherwise"],
"C17": ["partial", "two or more residual dimensions: result inside the projection, unit normals, error bounded by tol plus 1e-5 of the diameter, vertices affinely independent, termination; exact and total for one dimension; an error of tol alone is refuted; LinAlgError / QhullError outcomes characterised; out-of-range dimensions raise IndexError, a negative or repeated first dimension TypeError (C17_index_errors, C17_negative_refuted)"],
"C18": ["proved", "exact arithmetic, exact nnls and pinv (proved to exist); any number of constraints and variables"],
"C19": ["partial", "literal iff refuted (tolerance); proved: None implies infeasible or unbounded, Some implies primal/dual feasibility and gap within tol"],
"C20": ["proved", "KKT system and strong duality for every solvable LP"],
"C21": ["proved", "optimality, uniqueness, KKT multipliers; LinAlgError if H is not positive definite"],
"C22": ["partial", "literal iff refuted; exact criterion for None proved (C22_qp_none_iff), infeasible implies None"],
"C23": ["partial", "reported indices are tight; converse refuted under degeneracy"],
"C24": ["partial", "Proved for programs without nonzero entries of absolute value <= 1e-9 and with C, d both given or both omitted (in general the model is the program with such entries replaced by zero: C24_model_cut). The literal statement is false: C24_tiny_refuted, C24_lone_equalities."],
"C25": ["partial", "Dispatch and exceptions proved for all solver names; with solver gurobi a lone C or d is accepted (C25_lone_refuted), and drake raises NameError because its import is commented out."],
"C26": ["proved", "linear, affine and closed-loop simulation"],
"C27": ["proved", "every coherent list of systems and non-empty mode sequence; corollaries for LinearSystem/AffineSystem.condense"],
"C28": ["partial", "The literal claim is refuted by a domain with two equalities (contains is wrong, C06). C28_exact: returned runs and the ValueError characterised for all domains with an inequality, in terms of what contains accepts; C28_simulation_partial: the literal claim for at most one equality per domain"],
"C29": ["partial", "Proved for domains given by inequalities whose pairwise intersections do not contain arbitrarily large balls (in particular bounded domains). Refuted otherwise: radius is None and the comparison raises TypeError."],
"C30": ["partial", "Proved for X given by inequalities, bounded and containing the origin: before the final redundancy removal the set is exact; after it, exact up to tol, and exactly exact under a redundancy gap. The literal claim is refuted by the tolerance of the redundancy removal and by the ignored equalities of D."],
"C31": ["partial", "Exact characterization of termination, and termination for convergent A with b > 0. The literal claim is refuted twice (marginally stable A; stable A with the origin on the boundary)."],
"C32": ["partial", "Optimality over infinite horizons is proved for positive definite Q (and R); for positive semidefinite Q, which the docstring allows, it is refuted. The Riccati solver itself is an oracle: its result is assumed to satisfy the equation and be positive semidefinite; C32_exists shows that such a solution exists for every controllable system and that the least one gives the optimal value even for semidefinite Q, C32_unique that it is unique for positive definite Q. Uniqueness of the optimiser over infinite horizons follows from the finite horizon identity in C32_solve_dare."],
"C33": ["proved", "with exact rank computation"],
"C34": ["proved", "scipy.linalg.expm is an oracle assumed to return the limit of the exponential series (its existence is proved); solutions are differentiable on [0,h]."],
"C35": ["partial", "proved for all regular expressions (sums, products, powers, sin, cos, exp, quotients and roots without singularities), polyhedra and systems, sampled systems; refuted for expressions with singularities and for tiny offsets of linear systems; relative to a contract on sympy's conversions"],
"C36": ["partial", "exact acceptance conditions of all constructors proved; Polyhedron accepts C with the wrong number of columns (refuted)"],
"C37": ["partial", "Proved for symmetric Q and P; false otherwise (refutation included), because the condensed cross terms use Q instead of its symmetric part."],
"C38": ["partial", "Proved for the inequalities of all sets, hence the literal statement for sets without equalities; equalities are ignored by the code (C50)."],
"C39": ["partial", "Proved with the exact condition under which (None, None) is returned; the solver threshold 1e-7 rejects feasible problems whose optimum is 5e13 above the unconstrained one (refutation included). Sets without equalities."],
"C40": ["proved", "region_exact and region_returned give the exact set of parameters and of active sets"],
"C41": ["partial", "Holds for regions with at least one inequality (tolerance 1e-7 of contains explicit); a program without constraints makes the lookup raise (refuted)."],
"C42": ["partial", "Soundness of every region proved; agreement with the on-line solver proved where the region contains x exactly, refuted within the tolerance and for far minimizers; within the tolerance the constraint violation, the multipliers and the suboptimality are bounded (C42_tolerance_bound). The input itself is within a constant times the tolerance of the optimal one (C102)."],
"C43": ["partial", "The literal claim is refuted: the exploration starts at the origin (C43_cover_refuted) and jumps over regions narrower than the step (C43_gap_refuted). What termination guarantees is C43_frontier_partial; with one parameter, a feasible origin and clear answers of the QP solver every feasible parameter is within step + (m+1) 1e-7 of a region found (C43_one_parameter_partial)."],
"C44": ["partial", "Recursive feasibility proved for all runs of the closed loop; the terminal set of mcais is proved invariant unless a redundancy is within the solver tolerance 1e-7. Sets without equalities."],
"C45": ["proved", "For sets without equalities (with equalities the controller solves the problem without them, C50) and a Riccati solution returned by scipy."],
"C46": ["proved", "For sets without equalities and a Riccati solution returned by scipy."],
"C47": ["partial", "C47_encoding proves the equivalence for every horizon, state and point when the domains (non-empty, bounded, each with at least one inequality row) and the terminal set have no equalities; C47_encoding_partial gives both directions in general with the equalities dropped on one side; that the equalities are ignored is C47_equalities_refuted. Solver oracles assumed exact (exact_np)."],
"C48": ["partial", "C48_feedforward_partial: optimality over all input and mode sequences, the returned cost, the None case and feedback, for domains without equalities (with them: C47_equalities_refuted) and programs without entries below 1e-9, Gurobi assumed exact on the program built (gurobi_solves). C48_mpqp: the mpQP of the mode sequence has the same minimizer and cost (Q, P symmetric psd, R pd)."],
"C49": ["partial", "C49_bigM_exact: constants are the attained extreme values for non-empty domains with bounded directions. C49_raises_partial: the constructor raises for domains infeasible beyond the solver tolerance and for rays steeper than the tolerance; below the tolerance it does not raise: C49_unbounded_refuted, C49_empty_refuted."],
"C50": ["partial", "False of the code: refutations for the controllers and for mcais; proved that the controller is the one of the inequalities alone."],
"C51": ["proved", "For every offset the function either raises LinAlgError (np.linalg.solve on a singular matrix) or returns a unit normal and a nonnegative right-hand side satisfied by all the points; C51_unique says for exactly which offsets it returns. Contract of numpy.linalg.solve assumed (solve_ok)."],
"C52": ["partial", "Exact characterization of the returned value (C52_same_rows_partial), soundness of True (C52_sound), and the literal property when rows are distinguishable (C52_distinct). The literal property is false: duplicate rows and, with normalize, zero rows give False for identical matrices (C52_duplicates_refuted, C52_zero_row_refuted). Matrices with different numbers of columns: C52_widths (ValueError, or broadcasting and possibly True: C52_widths_refuted)."],
"C53": ["partial", "Independence of the returned rows is proved for every matrix (C53_independent). The cardinality claim is false (C53_rank_refuted, C53_tolerance_refuted); C53_complete_partial says exactly when all the rows are returned. Contract of numpy.linalg.qr assumed for the matrix at hand (qr_ok)."],
"C54": ["partial", "through C17 for polytopes of feasible pairs (exact for one parameter); unbounded feasible pairs refuted"],
"C55": ["proved", "C55_value_model: the heap model refines the value model; C55_mutation: add_*/remove_redundant/queries on copies or intersections change no earlier polyhedron or array; C55_visible: normalize is visible only through shared entries; C55_derived and C55_sets add histories with normalize; C55_shared_matrix_refuted and C55_view_refuted show that the set of a polyhedron may change when only part of a pair (A,b) is shared. Writes of the caller into arrays returned by center/vertices are not modelled."],
"C56": ["partial", "every cell contains exactly the points of X closest to its generator and the cells cover X, for polyhedra X without equalities and coordinates whose spread exceeds the tolerance of isclose; order of the cells preserved for points spread in several coordinates (relative to a contract on scipy.spatial.Voronoi) and for increasing 1-D points; the order is refuted for other 1-D points, the equalities and the tolerance too"],
"C57": ["partial", "The example controller class solves the finite-horizon problem with the cost matrices it is given, for all data with at least two modes whose big-M values are not in (0, 1e-6) and exact solvers (C57_example_controller, C57_entry); a big-M value in that range does not relax its row (C57_small_refuted). The literal claim is refuted: the wrapper Controller passes Q as P and returns a suboptimal input (C57_terminal_cost_refuted, C57_uses_Q), and a system with a single mode raises IndexError (C57_one_mode_refuted)."],
"C58": ["proved", "Start states with V below 5e13 (above, the solver threshold applies); sets without equalities."],
"C59": ["partial", "At states contained exactly in the region found; within the lookup tolerance 1e-7 the returned inputs need not be optimal, and an input is returned at infeasible states (C42_tolerance_refuted, C78_outside_refuted)."],
"C60": ["proved", "Assumes Gurobi is exact on the model built (gurobi_exact) and no tiny entries."],
"C61": ["proved", "Assumes exact numpy/scipy oracles and Gurobi exact on the models built, and no tiny entries."],
"C62": ["proved", "relative to the contract of scipy ConvexHull (hull_ok); raises only for points on a common hyperplane"],
"C63": ["partial", "The literal claim is false: the code flips the number of the row of the region, while the rows are ordered with the active constraints first (C63_guess_refuted). C63_rows gives the constraint behind each row, C63_neighbour proves the claim for the guess that flips that constraint, C63_initial that both agree when the active constraints are the first ones. The guess is verified before it is used, so the results stay right (C42)."],
"C64": ["proved", "In two or more dimensions for facets with bounded balls; in one dimension the point of the row."],
"C65": ["partial", "The literal claim is false: multipliers may be negative and belong to constraints that are not active (C65_multipliers_refuted). C65_drake_lp proves everything else, and the full KKT conditions when the nearly active constraints and the equalities are independent. Drake assumed exact on the program built (k_ok), pseudo-inverse with two of the Moore-Penrose equations."],
"C66": ["partial", "The literal claim is false: constraints with slack below 1e-5 are treated as active (C66_near_active_refuted) and dependent active constraints raise LinAlgError (C66_dependent_refuted). C66_drake_qp is the exact characterisation; full KKT conditions when the active constraints are tight and independent."],
"C67": ["proved", "Drake assumed exact on the program built; nc at most the number of variables."],
"C68": ["partial", "Proved for every polytope with a ball of radius tol in which every inequality is strict at some point (two or more degrees of freedom: C68_vertices; one degree of freedom, with the redundancy gap of C16: C68_segment), for thin polytopes (C68_thin) and empty ones without constant rows (C68_empty). The literal claim is refuted: an inequality that holds with equality on the whole polytope, such as 0 x <= 0, makes vertices raise QhullError (C68_implicit_refuted for every such polytope, C68_zero_row_refuted with a witness)."],
"C69": ["partial", "C69_decrease, C69_closed_loop: recursive feasibility, domains and decrease of the value at every step, for every PWA system, cost, terminal set and horizon, as long as Gurobi solves the (sharp) programs along the loop. C69_convergence: convergence if it solves all of them; since entries below 10^-9 are dropped, near the origin that cannot be expected, and C69_practical gives entry into every ball outside of which the programs are solved. Missing: convergence to the origin itself when Gurobi's data are not sharp."],
"C70": ["partial", "C70_design: every call succeeds, D is the box, the terminal set contains the largest invariant set, and if it is invariant the loop of the notebook runs forever, respects the bounds and converges. Missing: invariance of the terminal set when mcais decided a redundancy within the tolerance 1e-7 (then the set can be larger, C30_tolerance_refuted), and values above 5e13."],
"C71": ["partial", "Proved for the three time plots (C71_inputs, C71_states, C71_outputs) and for the line and the marker of plot_state_space_trajectory (C71_state_space). The labels are false of the code: they are placed at components 0 and 1 whatever dim is (C71_text_refuted). C71_errors: wrong dim, empty data, empty list of bounds."],
"C72": ["partial", "C72_plot: for every polyhedron whose vertices were computed, the path goes around exactly the projection of their hull, or Qhull raises because the projection is on one line. C72_solid: for full-dimensional polytopes (as in C68) this is the projection of the polytope. False of the code for polytopes thinner than the tolerance (nothing drawn, C72_thin_refuted) and with rows of zeros (QhullError, C72_zero_row_refuted). C72_contract: the contract of ConvexHull.vertices in the plane can be met for every list of points."],
"C73": ["partial", "C73_partition for critical regions that can be plotted (C72), C73_value_function for feasible sets returned by get_feasible_set (C54) with vertices not on a line, C73_errors. Missing: what contour does with None (states outside all regions)."],
"C74": ["partial", "Convex-hull method proved (C74_convex_hull; the drawn set up to the error of project_to, C74_hull_drawn_partial). The big-M cell has the wrong sign for the second disjunct: refuted, and what it computes is characterised."],
"C75": ["partial", "C75_mcais_demo_partial: every call succeeds, X_cl is the set of admissible states, O_inf contains every state whose closed-loop trajectory stays in X_cl, all trajectories converge; O_inf contains no other states unless mcais decided a redundancy within the tolerance 1e-7 (then it can, C30_tolerance_refuted)."],
"C76": ["partial", "C76_design: every call succeeds and the terminal ingredients are those C69 needs (invariance unless mcais used its tolerance). C76_run_partial: the loop never fails, respects the domains and approaches the origin if the modes agree where get_mode's tolerance 1e-7 could choose another one; C76_along_partial asks this only at the pairs (x, u) met. For the notebook's own system they disagree in a strip of width 1e-7 (C76_mode_refuted; bounds in C91). Gurobi is an oracle that solves the programs met."],
"C77": ["partial", "The literal property is refuted: the loop runs forever for a program with a multiplier below the tolerance 1e-7 of the QP solver (C77_terminates_refuted). Proved: if the multipliers at the explored points are zero or above 1e-7 the loop ends within 2 + 2^m (m+1) iterations with pairwise different active sets, or raises for a region without facets or a facet without center."],
"C78": ["partial", "Agreement proved wherever the region found contains the state and the on-line solver does not give up (costs below 5e13); closed loop with feedback_explicit proved (constraints, decrease, convergence, no bound on the cost) when the regions contain all feasible states. The literal claim is refuted outside the regions (lookup tolerance 1e-7)."],
"C79": ["partial", "Single-valuedness and continuity on the union of the regions proved for all programs (C79_single_valued, C79_continuous); convexity of the value under joint convexity (C79_value_convex_partial), unconditionally for the linear MPC controller (C79_mpc_convex). The lookup function itself jumps because of its tolerance (C79_lookup_refuted); without joint convexity the value is not convex (C79_convex_refuted). Its jumps are at most a constant times the tolerance (C102_jump)."],
"C80": ["proved", "Q positive definite and, for feedforward to answer at all, a cost below 1/2 x'P x + 5e13 (the infeasibility threshold of pnnls). A short horizon gives a larger cost (refutation of the claim without 'from some horizon on')."],
"C81": ["proved", "Regions of all active sets, not only those visited by explicit_solve (their coverage is C43). For the controller: wherever feedforward answers, which excludes the states whose optimal cost exceeds the infeasibility threshold of pnnls."],
"C82": ["proved", "Sets without equalities (with them the controller is that of the inequalities alone, C50)."],
"C83": ["partial", "Refuted: the threshold of pnnls on the cost is absolute, so scaling changes the states at which None is returned (C83_scaling_refuted). Proved: where both controllers answer the inputs agree and the cost scales, and the exact condition for None with the factor."],
"C84": ["proved", "The linear controller alone also returns None where the optimal cost exceeds the unconstrained one by 5e13 (C39): stated in C84_one_dynamics. gurobi_solves: no entry below 1e-9 and an exact answer."],
"C85": ["proved", "Terminal ingredients as for C69; big-M constants not within 1e-6 above zero; drake exact on the programs of the loop (drake_solves)."],
"C86": ["partial", "Model and controller: proved. Convergence proved if the input is held for the sampling time of the model; the notebook holds it twice as long, for which it is refuted. On a nonlinear plant, whose linearization errors the model ignores, convergence is proved near the origin (C98_notebook, C98_cart)."],
"C87": ["proved", "history independence for every finite sequence of calls, failed ones included; drake is a function of the program (oracle)."],
"C88": ["partial", "C88_interval: exact for one state. C88_region_partial: two or more states, up to the error of the projection (states outside the polyhedron by less than the error are not classified). Costs below the solver threshold are a hypothesis in both."],
"C89": ["partial", "Intersection and product: accepted by both implies accepted, with equivalence if at most one operand has equalities (refuted for two, because the equality test takes the absolute value of the maximum residual). Monotone in the tolerance. normalize keeps the points of the set accepted and is refuted for other points. Inclusion: for non-empty bounded P1 and P2 with at most one equality. contains raises for polyhedra without inequalities (C06), so the operands have one."],
"C90": ["proved", "from_continuous with zero_order_hold assumes the exact matrix exponential; C90_one_dynamics says when the one-mode piecewise affine system returns (its domain has to accept every reached pair)."],
"C91": ["proved", "exact numpy/scipy/Gurobi contracts; terminal set invariant as in C76_design; C91_pendulum and C91_cart bound the effect of get_mode's tolerance."],
"C92": ["proved", "C92_spectral_radius, C92_attractive_iff, C92_test, C92_halts, C92_lqr, with an exact eig; C92_libraries: the contracts of eig and dare can be met for all sizes. The boundary case of modulus one is accepted and decides nothing about termination (C92_marginal_refuted)."],
"C93": ["proved", "for every rounding function and order of evaluation; float64 from Flocq; data of large size refuted separately (C93_far_refuted)"],
"C94": ["proved", "for every rounding function and order of evaluation; overflow not modelled"],
"C95": ["proved", "Exact arithmetic; MATLAB's symbolic toolbox modelled by expressions with derivatives. The plant of the stability claim is the explicit Euler discretization of the nonlinear equations."],
"C96": ["proved", "Linear controller: feedback is the gain on the whole terminal set and the loop with a nonlinear plant converges geometrically near the origin (C96_feedback, C96_mpc). Hybrid controller: explicit region (C96_level), radius (C96_hybrid_feedback), loop (C96_hybrid_loop, C96_notebook), for the times at which Gurobi meets its contract. Cart-pole: C96_cart."],
"C97": ["proved", "zero_order_hold gives the derivative of the sampled nonlinear plant; LQR, MPC and hybrid MPC designed on it stabilize the continuous-time plant, at all times (exact matrix exponential); instance for the cart-pole of cart_pole_dynamics.m; refuted for explicit_euler (C97_euler_refuted)"],
"C98": ["proved", "feedback is K x near the origin for the linear, hybrid and drake controllers; the controller of the notebook stabilizes the nonlinear plant locally when its input is held for h (exact solvers and matrix exponential, reachability of the origin in N steps; for the cart-pole this is proved for N >= 4)"],
"C99": ["partial", "Proved for every table produced by explicit_solve, every rounding function with bounded relative and absolute error and every order of summation, with explicit conditions on the rounding errors; float64 up to 999 parameters and terms up to 10^5. Without such a bound it is false (C99_far_refuted). V(x) is C103; the off-line computation is not rounded."]
}
